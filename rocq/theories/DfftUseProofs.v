(** The accuracy of the transforms in terms of the specification *)
From Coq Require Import ZArith Reals List Bool Lia Lra Psatz.
From Flocq Require Import Core BinarySingleNaN.
From Verif Require Import Base DblModel DblSpec DblProofs Dbl2Proofs DlineProofs KerSpec KerProofs FftModel FftSpec FftBits FftComplex FftRunProofs FftProofs Fft2Proofs FftUseProofs CmodProofs DfftModel DfftSpec DfftProofs Dfft2Proofs Dfft3Proofs.
Open Scope R_scope.

Definition plist (re im : list f64) (i : nat) : P64 := (nth i re fzero, nth i im fzero).
Lemma val_plist re im i : val (plist re im i) = zlist (map real re) (map real im) i.
Proof. unfold val, plist, zlist. cbn [fst snd]. change 0 with (real fzero). rewrite !map_nth. reflexivity. Qed.
Lemma magnitudes_sum n re im : magnitudes n re im = rsumf n (fun j => cmod (val (plist re im j))).
Proof. reflexivity. Qed.
Lemma all_finite_in n re im i : all_finite n re im -> (i < n)%nat -> fin2 (plist re im i).
Proof. intros (h1 & h2 & h3 & h4) hi. rewrite Forall_forall in h3, h4. split; [apply h3|apply h4]; apply nth_In; lia. Qed.
Lemma all_finite_sig n re im : all_finite n re im -> sig_of f64 (re, im) n (plist re im).
Proof. intros (h1 & h2 & _). exact (sig_lists_of f64 fzero (re, im) n h1 h2). Qed.
Lemma sig_nth64 s n z k : sig_of f64 s n z -> (k < n)%nat -> nth k (fst s) fzero = fst (z k) /\ nth k (snd s) fzero = snd (z k).
Proof. intros (_ & _ & h) hk. destruct (h k hk) as [h1 h2]. split; apply nth_error_nth; assumption. Qed.
Lemma bpow_inv k : (0 <= k)%Z -> B (- k) = / IZR (2 ^ k).
Proof. intros h. rewrite bpow_opp, <- IZR_pow2 by exact h. reflexivity. Qed.

Section Use.
Variable d : R.
Variable fcos fsin : f64 -> f64.
Variable junk : nat -> list f64.
Hypothesis junk_length : forall n, length (junk n) = n.
Hypothesis libm : libm_within d fcos fsin.
Hypothesis d_range : 0 <= d <= / 1000000.
Notation transform64 := (transform_of f64 fzero fadd fsub fmul fneg (fun x n => fdiv x (f_of_nat n)) (fun i n => fcos (angle_turn i n)) (fun i n => fsin (angle_turn i n))
    (fun i n => fcos (angle_half i n)) (fun i n => fsin (angle_half i n)) junk).

(** a function on signals that is near to the transform *)
Definition near_fn (e : R -> R) (n : nat) (F : (nat -> P64) -> nat -> P64) : Prop :=
  forall x, (forall i, (i < n)%nat -> fin2 (x i)) -> rsumf n (fun j => cmod (val (x j))) <= B 900 -> forall i, (i < n)%nat ->
    fin2 (F x i) /\ cmod (val (F x i) -c DFT n (fun j => val (x j)) i) <= e (rsumf n (fun j => cmod (val (x j)))).
Lemma near_power L : (L <= 31)%nat -> exists F, good_of f64 (transform64 1) (2 ^ L) F /\ near_fn (error_power_of_two d (2 ^ L)) (2 ^ L) F.
Proof.
  intros hL. eexists. split; [apply transform_pow2_of; exact junk_length|]. intros x hx hS i hi.
  destruct (radix2_near d fcos fsin libm d_range L x ltac:(lia) hx) with (i := i) as [h1 h2]; [pose proof (bpow_le radix2 900 1008 ltac:(lia)); lra|exact hi|]. split; [exact h1|]. eapply Rle_trans; [exact h2|].
  unfold error_power_of_two. rewrite Nat.log2_pow2 by lia. unfold rho. apply Rplus_le_compat_l. unfold Rdiv. rewrite <- bpow_inv by lia. assert (h : 3 * eta <= B (-1020)) by (replace (B (-1020)) with (4 * eta) by (change 4 with (B 2); rewrite <- bpow_plus; reflexivity); pose proof eta_pos; lra).
  assert (0 <= INR (2 ^ L) * INR (2 ^ L)) by (apply Rmult_le_pos; apply pos_INR). rewrite Rmult_comm. apply Rmult_le_compat_l; assumption.
Qed.
Lemma error_le n s : (0 < n)%nat -> 0 <= s -> error_power_of_two d n s <= error_any d n s.
Proof.
  intros hn hs. unfold error_power_of_two, error_any. pose proof u_pos as hu. assert (hN : 1 <= INR n) by (change 1 with (INR 1); apply le_INR; lia). pose proof (pos_INR (Nat.log2 n)) as hl.
  assert (hl2 : INR (Nat.log2 n) <= INR (Nat.log2 (4 * n))) by (apply le_INR, Nat.log2_le_mono; lia). apply Rplus_le_compat.
  - apply Rmult_le_compat_r; [exact hs|]. apply Rmult_le_compat; [apply Rmult_le_pos; lra|lra| |lra]. apply Rmult_le_compat; lra.
  - unfold Rdiv. apply Rmult_le_compat; [apply Rmult_le_pos; lra|apply Rlt_le, Rinv_0_lt_compat, IZR_lt; reflexivity| |].
    + rewrite <- (Rmult_1_r (INR n * INR n)) at 1. apply Rmult_le_compat_l; [apply Rmult_le_pos; lra|lra].
    + apply Rinv_le_contravar; [apply IZR_lt; reflexivity|]. apply IZR_le. apply Z.pow_le_mono_r; lia.
Qed.
Lemma near_any n : (Z.of_nat n < 2 ^ 32)%Z -> exists F, good_of f64 (transform64 1) n F /\ near_fn (error_any d n) n F.
Proof.
  intros hn. destruct (Nat.eq_dec n 0) as [->|h0]; [exists (fun x => x); split; [apply transform_zero_of; exact junk_length|intros x _ _ i hi; lia]|]. destruct (Nat.eq_dec (Nat.land n (n - 1)) 0) as [e|e].
  - apply pow2_test in e as [L ->]; [|lia]. destruct (near_power L) as (F & h1 & h2).
    { destruct (Nat.le_gt_cases L 31) as [h|h]; [exact h|]. exfalso. rewrite Nat2Z.inj_pow in hn. apply Z.pow_lt_mono_r_iff in hn; lia. }
    exists F. split; [exact h1|]. intros x hx hS i hi. destruct (h2 x hx hS i hi) as [q1 q2]. split; [exact q1|]. eapply Rle_trans; [exact q2|]. apply error_le; [lia|]. apply rsumf_pos. intros. apply cmod_pos.
  - assert (h3 : (3 <= n)%nat) by (destruct n as [|[|[|n]]]; cbn in e; lia).
    assert (hp : (0 < n)%nat) by lia.
    match goal with |- exists F, good_of f64 (transform_of f64 ?z ?a ?s ?m ?ng ?o ?c1 ?c2 ?c3 ?c4 _ _) _ _ /\ _ => destruct (transform_other_of f64 a s m ng z o c1 c2 c3 c4 junk junk_length 0 n hp e) as (L & hL & h) end.
    eexists. split; [exact h|]. intros x hx hS i hi. destruct (bluestein_near d fcos fsin libm d_range n L h3 hn hL x hx hS i hi) as [q1 q2]. split; [exact q1|]. eapply Rle_trans; [exact q2|].
    unfold error_any. assert (hN : 1 <= INR n) by (change 1 with (INR 1); apply le_INR; lia). assert (hl : INR L <= INR (Nat.log2 (4 * n))) by (apply le_INR; apply Nat.log2_le_pow2; lia). pose proof (pos_INR L). pose proof u_pos.
    assert (hs : 0 <= rsumf n (fun j => cmod (val (x j)))) by (apply rsumf_pos; intros; apply cmod_pos). apply Rplus_le_compat.
    + apply Rmult_le_compat_r; [exact hs|]. apply Rmult_le_compat_r; [lra|]. apply Rmult_le_compat_l; lra.
    + unfold Rdiv. rewrite <- bpow_inv by lia. assert (hb : 160 * eta <= B (-1000)) by (assert (h2 : B 8 * eta <= B (-1000)) by (rewrite <- bpow_plus; apply bpow_le; lia); change (B 8) with 256 in h2; pose proof eta_pos; lra).
      replace (160 * (INR n * INR n * INR n * eta)) with (INR n * INR n * INR n * (160 * eta)) by ring. apply Rmult_le_compat_l; [|exact hb]. apply Rmult_le_pos; [apply Rmult_le_pos|]; lra.
Qed.

(** ** sp_fft *)
Lemma near_dft_of e n re im re' im' z : sig_of f64 (re', im') n z -> (forall i, (i < n)%nat -> fin2 (z i) /\ cmod (val (z i) -c DFT n (fun j => val (plist re im j)) i) <= e) -> near_dft e n re im re' im'.
Proof.
  intros hs h. split; [apply hs|]. split; [apply hs|]. intros k hk. destruct (sig_nth64 _ _ _ k hs hk) as [e1 e2]. cbn [fst snd] in e1, e2. rewrite e1, e2. destruct (h k hk) as [[f1 f2] hc]. splits; auto.
  - replace (dft_re n (map real re) (map real im) k) with (fst (DFT n (fun j => val (plist re im j)) k)). { eapply Rle_trans; [|exact hc]. apply (cmod_fst (val (z k) -c DFT n (fun j => val (plist re im j)) k)). }
    rewrite (DFT_ext n _ (zlist (map real re) (map real im))) by (intros; apply val_plist). rewrite DFT_parts. reflexivity.
  - replace (dft_im n (map real re) (map real im) k) with (snd (DFT n (fun j => val (plist re im j)) k)). { eapply Rle_trans; [|exact hc]. apply (cmod_snd (val (z k) -c DFT n (fun j => val (plist re im j)) k)). }
    rewrite (DFT_ext n _ (zlist (map real re) (map real im))) by (intros; apply val_plist). rewrite DFT_parts. reflexivity.
Qed.
Lemma fft64_near e n F ok re im : good_of f64 (transform64 1) n F -> near_fn e n F -> all_finite n re im -> magnitudes n re im <= IZR (2 ^ 900) ->
  exists st re' im', sp_fft64 fcos fsin junk ok n (re, im) = Some (st, (re', im')) /\
    (st = 0%Z /\ near_dft (e (magnitudes n re im)) n re im re' im' \/ st = 1%Z /\ re' = re /\ im' = im) /\ ((forall p, ok p = true) -> st = 0%Z).
Proof.
  intros hg hn hf hS. rewrite IZR_pow2 in hS by lia. rewrite magnitudes_sum in *. destruct (hg ok (re, im) _ (all_finite_sig _ _ _ hf)) as (st & [re' im'] & e1 & h & k). unfold sp_fft64, fft_of. rewrite e1. cbn [bind].
  exists (if st then 0%Z else 1%Z), re', im'. splits; [reflexivity| |intros hp; rewrite (k hp); reflexivity]. destruct st.
  - left. split; [reflexivity|]. apply (near_dft_of _ _ _ _ _ _ _ h). intros i hi. exact (hn _ (fun i hi => all_finite_in _ _ _ i hf hi) hS i hi).
  - right. injection h as -> ->. auto.
Qed.
(** ** sp_ffti *)
Lemma near_swap e n F x : near_fn e n F -> (forall i, (i < n)%nat -> fin2 (x i)) -> rsumf n (fun j => cmod (val (x j))) <= B 900 -> forall i, (i < n)%nat ->
  let G := sw f64 (F (fun j => sw f64 (x j)) i) in fin2 G /\ cmod (val G -c IDFT n (fun j => val (x j)) i) <= e (rsumf n (fun j => cmod (val (x j)))).
Proof.
  intros hn hf hS i hi. assert (es : rsumf n (fun j => cmod (val (sw f64 (x j)))) = rsumf n (fun j => cmod (val (x j)))) by (apply rsumf_ext; intros j _; rewrite val_sw; apply cmod_sw).
  destruct (hn (fun j => sw f64 (x j))) with (i := i) as [[f1 f2] h]; [intros j hj; destruct (hf j hj); split; assumption|rewrite es; exact hS|exact hi|]. rewrite es in h. split; [split; assumption|].
  rewrite <- sw_DFT, val_sw, sw_sub. exact h.
Qed.
Lemma near_idft_of e n re im re' im' z : sig_of f64 (re', im') n z -> (forall i, (i < n)%nat -> fin2 (z i) /\ cmod (val (z i) -c IDFT n (fun j => val (plist re im j)) i) <= e) -> near_idft e n re im re' im'.
Proof.
  intros hs h. split; [apply hs|]. split; [apply hs|]. intros k hk. destruct (sig_nth64 _ _ _ k hs hk) as [e1 e2]. cbn [fst snd] in e1, e2. rewrite e1, e2. destruct (h k hk) as [[f1 f2] hc]. splits; auto.
  - replace (idft_re n (map real re) (map real im) k) with (fst (IDFT n (fun j => val (plist re im j)) k)). { eapply Rle_trans; [|exact hc]. apply (cmod_fst (val (z k) -c IDFT n (fun j => val (plist re im j)) k)). }
    rewrite (IDFT_ext n _ (zlist (map real re) (map real im))) by (intros; apply val_plist). rewrite IDFT_parts. reflexivity.
  - replace (idft_im n (map real re) (map real im) k) with (snd (IDFT n (fun j => val (plist re im j)) k)). { eapply Rle_trans; [|exact hc]. apply (cmod_snd (val (z k) -c IDFT n (fun j => val (plist re im j)) k)). }
    rewrite (IDFT_ext n _ (zlist (map real re) (map real im))) by (intros; apply val_plist). rewrite IDFT_parts. reflexivity.
Qed.
Lemma ffti64_near e n F ok re im : good_of f64 (transform64 1) n F -> near_fn e n F -> all_finite n re im -> magnitudes n re im <= IZR (2 ^ 900) ->
  exists st re' im', sp_ffti64 fcos fsin junk ok n (re, im) = Some (st, (re', im')) /\
    (st = 0%Z /\ near_idft (e (magnitudes n re im)) n re im re' im' \/ st = 1%Z /\ re' = re /\ im' = im) /\ ((forall p, ok p = true) -> st = 0%Z).
Proof.
  intros hg hn hf hS. rewrite IZR_pow2 in hS by lia. rewrite magnitudes_sum in *. destruct (inverse_of_good f64 _ n F hg ok (re, im) _ (all_finite_sig _ _ _ hf)) as (st & [re' im'] & e1 & h & k). unfold sp_ffti64, ffti_of. rewrite e1. cbn [bind].
  exists (if st then 0%Z else 1%Z), re', im'. splits; [reflexivity| |intros hp; rewrite (k hp); reflexivity]. destruct st.
  - left. split; [reflexivity|]. apply (near_idft_of _ _ _ _ _ _ _ h). intros i hi. exact (near_swap _ _ _ _ hn (fun i hi => all_finite_in _ _ _ i hf hi) hS i hi).
  - right. injection h as -> ->. auto.
Qed.
(** ** both *)
Lemma IDFT_near n x y k : cmod (IDFT n x k -c IDFT n y k) <= rsumf n (fun i => cmod (x i -c y i)).
Proof. rewrite <- !sw_DFT, sw_sub. eapply Rle_trans; [apply DFT_near|]. apply rsumf_le. intros i _. rewrite sw_sub. lra. Qed.
Lemma round_trip64 ok1 ok2 n re im : (Z.of_nat n < 2 ^ 32)%Z -> (forall p, ok1 p = true) -> (forall p, ok2 p = true) -> all_finite n re im ->
  let e := error_any d n (magnitudes n re im) in let s := INR n * (magnitudes n re im + e) in s <= IZR (2 ^ 900) -> magnitudes n re im <= IZR (2 ^ 900) ->
  exists t re' im', sp_fft64 fcos fsin junk ok1 n (re, im) = Some (0%Z, t) /\ sp_ffti64 fcos fsin junk ok2 n t = Some (0%Z, (re', im')) /\ length re' = n /\ length im' = n /\
    forall k, (k < n)%nat -> finite (nth k re' fzero) /\ finite (nth k im' fzero) /\
      Rabs (real (nth k re' fzero) - INR n * real (nth k re fzero)) <= error_any d n s + INR n * e /\ Rabs (real (nth k im' fzero) - INR n * real (nth k im fzero)) <= error_any d n s + INR n * e.
Proof.
  intros hn a1 a2 hf e s hs hS. destruct (near_any n hn) as (F & hg & hF). rewrite IZR_pow2 in hS, hs by lia.
  destruct (hg ok1 (re, im) _ (all_finite_sig _ _ _ hf)) as (st & t & e1 & h & k). rewrite (k a1) in *.
  assert (hx : forall i, (i < n)%nat -> fin2 (F (plist re im) i) /\ cmod (val (F (plist re im) i) -c DFT n (fun j => val (plist re im j)) i) <= e) by (intros i hi; exact (hF _ (fun i hi => all_finite_in _ _ _ i hf hi) hS i hi)).
  destruct (inverse_of_good f64 _ n F hg ok2 t _ h) as (st2 & [re' im'] & e2 & h2 & k2). rewrite (k2 a2) in *.
  exists t, re', im'. unfold sp_fft64, fft_of. rewrite e1. unfold sp_ffti64, ffti_of. cbn [bind]. rewrite e2. cbn [bind]. splits; auto; [apply h2|apply h2|].
  assert (hT : rsumf n (fun j => cmod (val (F (plist re im) j))) <= s).
  { unfold s. rewrite <- rsumf_const. apply rsumf_le. intros i hi. destruct (hx i hi) as [_ hc]. pose proof (cmod_near _ _ _ hc). pose proof (cmod_DFT n (fun j => val (plist re im j)) i). rewrite magnitudes_sum. lra. }
  intros j hj. destruct (near_swap (error_any d n) n F (F (plist re im)) hF (fun i hi => proj1 (hx i hi)) ltac:(lra) j hj) as [[f1 f2] hc].
  destruct (sig_nth64 _ _ _ j h2 hj) as [q1 q2]. cbn [fst snd] in q1, q2. rewrite q1, q2.
  assert (hd : rsumf n (fun i => cmod (val (F (plist re im) i) -c DFT n (fun j => val (plist re im j)) i)) <= INR n * e) by (rewrite <- rsumf_const; apply rsumf_le; intros i hi; apply hx; exact hi).
  pose proof (Rle_trans _ _ _ (IDFT_near n (fun i => val (F (plist re im) i)) (DFT n (fun j => val (plist re im j))) j) hd) as hi2. rewrite IDFT_DFT in hi2 by exact hj.
  pose proof (cmod_via _ _ _ _ _ hc hi2) as hz.
  assert (hm : error_any d n (rsumf n (fun j => cmod (val (F (plist re im) j)))) <= error_any d n s).
  { unfold error_any. apply Rplus_le_compat_r. apply Rmult_le_compat_l; [|exact hT]. pose proof u_pos. pose proof (pos_INR n). pose proof (pos_INR (Nat.log2 (4 * n))). apply Rmult_le_pos; [|lra]. apply Rmult_le_pos; lra. }
  pose proof (Rle_trans _ _ _ hz (Rplus_le_compat_r (INR n * e) _ _ hm)) as hw. splits; auto.
  - eapply Rle_trans; [|exact hw]. eapply Rle_trans; [|apply cmod_fst]. right. f_equal. cbn [csub cmul val plist sw fst snd]. ring.
  - eapply Rle_trans; [|exact hw]. eapply Rle_trans; [|apply cmod_snd]. right. f_equal. cbn [csub cmul val plist sw fst snd]. ring.
Qed.
End Use.
(** ** a cosine and a sine with the assumed accuracy: rounded to multiples of 2^-40 *)
Definition cos40 (x : f64) : f64 := fmake (ZnearestE (cos (real x) * B 40)) (-40).
Definition sin40 (x : f64) : f64 := fmake (ZnearestE (sin (real x) * B 40)) (-40).
Lemma near40 t : -1 <= t <= 1 -> finite (fmake (ZnearestE (t * B 40)) (-40)) /\ Rabs (real (fmake (ZnearestE (t * B 40)) (-40)) - t) <= / 1000000.
Proof.
  intros ht. pose proof (Znearest_half (fun x => negb (Z.even x)) (t * B 40)) as h. change (Znearest (fun x => negb (Z.even x))) with ZnearestE in h. set (z := ZnearestE (t * B 40)) in *. apply Rabs_le_inv in h.
  assert (hb : - B 40 <= t * B 40 <= B 40) by (pose proof (bpow_gt_0 radix2 40); nra). change (B 40) with 1099511627776 in *.
  assert (hz : (-1099511627777 < z < 1099511627777)%Z) by (split; apply lt_IZR; lra).
  destruct (fmake_exact z (-40)) as [f e]; [apply Z.abs_lt; change (2 ^ 53)%Z with 9007199254740992%Z; lia|lia|]. split; [exact f|]. rewrite e. change (B (-40)) with (/ 1099511627776). apply Rabs_le. lra.
Qed.
Lemma libm40 : libm_within (/ 1000000) cos40 sin40.
Proof. intros x _ _. destruct (near40 (cos (real x)) (COS_bound _)). destruct (near40 (sin (real x)) (SIN_bound _)). splits; assumption. Qed.
