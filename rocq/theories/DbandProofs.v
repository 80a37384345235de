(** Band kernels and filtered streams with doubles *)
From Coq Require Import ZArith Reals List Bool Lia Lra Psatz.
From Flocq Require Import Core BinarySingleNaN.
From Verif Require Import Base DblModel DblSpec DblProofs Dbl2Proofs DlineProofs ConvolveModel ConvolveSpec ConvolveFinal KerSpec KerProofs Ker2Proofs KerFejer CmodProofs DfftModel DfftProofs
  DkerModel DkerSpec DkerProofs Dker2Proofs DconvSpec DconvProofs DbandModel DbandSpec.
Import ListNotations.
Open Scope R_scope.
Notation csum := (conv_sample R Rplus Rmult 0).

(** ** differences of convolutions *)
Lemma csum_full a b k : csum a b k = rsumf (S k) (fun i => nth i a 0 * nth (k - i) b 0).
Proof.
  unfold conv_sample. rewrite fold_rplus, Rplus_0_l, flat_map_seq_sum. apply rsumf_ext. intros i hi. unfold conv_term. destruct (nth_error a i) as [x|] eqn:ex.
  - rewrite (nth_error_nth_eq a i x 0 ex). destruct (nth_error b (k - i)) as [y|] eqn:ey.
    + rewrite (nth_error_nth_eq b _ y 0 ey). cbn. ring.
    + apply nth_error_None in ey. rewrite (nth_overflow b) by exact ey. cbn. ring.
  - apply nth_error_None in ex. rewrite (nth_overflow a) by exact ex. cbn. ring.
Qed.
Lemma count_le m n c : 0 <= c -> rsumf m (fun i => if (i <? n)%nat then c else 0) <= INR n * c.
Proof.
  intros hc. enough (G : rsumf m (fun i => if (i <? n)%nat then c else 0) = INR (Nat.min m n) * c).
  { rewrite G. apply Rmult_le_compat_r; [exact hc|]. apply le_INR. lia. }
  induction m as [|m IH]; [cbn; ring|]. cbn [rsumf]. rewrite IH. destruct (Nat.ltb_spec m n).
  - replace (Nat.min (S m) n) with (S (Nat.min m n)) by lia. rewrite S_INR. ring.
  - replace (Nat.min (S m) n) with (Nat.min m n) by lia. ring.
Qed.
Lemma csum_near a b a' b' c k : length a = length a' -> length b = length b' -> 0 <= c ->
  (forall i j, (i < length a)%nat -> (j < length b)%nat -> Rabs (nth i a 0 * nth j b 0 - nth i a' 0 * nth j b' 0) <= c) ->
  Rabs (csum a b k - csum a' b' k) <= INR (Nat.min (length a) (length b)) * c.
Proof.
  intros la lb hc h. rewrite !csum_full, <- rsumf_minus. eapply Rle_trans; [apply rsumf_abs|].
  assert (G : forall i, (i < S k)%nat -> Rabs (nth i a 0 * nth (k - i) b 0 - nth i a' 0 * nth (k - i) b' 0) <= if (i <? length a)%nat && (k - i <? length b)%nat then c else 0).
  { intros i hi. destruct (Nat.ltb_spec i (length a)); destruct (Nat.ltb_spec (k - i) (length b)); cbn [andb]; [apply h; assumption| | |].
    - rewrite (nth_overflow b), (nth_overflow b') by lia. rewrite !Rmult_0_r, Rminus_0_r, Rabs_R0. lra.
    - rewrite (nth_overflow a), (nth_overflow a') by lia. rewrite !Rmult_0_l, Rminus_0_r, Rabs_R0. lra.
    - rewrite (nth_overflow a), (nth_overflow a') by lia. rewrite !Rmult_0_l, Rminus_0_r, Rabs_R0. lra. }
  eapply Rle_trans; [apply rsumf_le; exact G|]. destruct (Nat.le_gt_cases (length a) (length b)).
  - rewrite Nat.min_l by lia. eapply Rle_trans; [|apply (count_le (S k)); exact hc]. apply rsumf_le. intros i hi. destruct (i <? length a)%nat, (k - i <? length b)%nat; cbn [andb]; lra.
  - rewrite Nat.min_r by lia. eapply Rle_trans; [|apply (count_le (S k)); exact hc]. rewrite (rsumf_rev (S k) (fun i => if (i <? length b)%nat then c else 0)). apply rsumf_le.
    intros i hi. replace (S k - 1 - i)%nat with (k - i)%nat by lia. destruct (i <? length a)%nat, (k - i <? length b)%nat; cbn [andb]; lra.
Qed.
Lemma csum_le a b c k : 0 <= c -> (forall i j, (i < length a)%nat -> (j < length b)%nat -> Rabs (nth i a 0 * nth j b 0) <= c) ->
  Rabs (csum a b k) <= INR (Nat.min (length a) (length b)) * c.
Proof.
  intros hc h. assert (z : csum a (map (fun _ => 0) b) k = 0).
  { rewrite csum_full. apply rsumf_zero_in. intros i _. destruct (Nat.lt_ge_cases (k - i) (length b)).
    - rewrite (nth_map_any (fun _ => 0) b (k - i) 0 0) by assumption. ring.
    - rewrite (nth_overflow (map _ b)) by (rewrite map_length; assumption). ring. }
  replace (csum a b k) with (csum a b k - csum a (map (fun _ => 0) b) k) by (rewrite z; ring). apply csum_near; auto; [rewrite map_length; reflexivity|].
  intros i j hi hj. rewrite (nth_map_any (fun _ => 0) b j 0 0) by assumption. rewrite Rmult_0_r, Rminus_0_r. apply h; assumption.
Qed.

(** ** a stream and a kernel *)
Lemma nth_real (l : list f64) i : (i < length l)%nat -> nth i (map real l) 0 = real (nth i l fzero).
Proof. intros h. apply (nth_map_any real l i 0 fzero h). Qed.
Lemma nth_abs (l : list f64) i : (i < length l)%nat -> nth i (map (fun x => Rabs (real x)) l) 0 = Rabs (real (nth i l fzero)).
Proof. intros h. apply (nth_map_any (fun x => Rabs (real x)) l i 0 fzero h). Qed.
Lemma Forall_nth_d {A} (P : A -> Prop) (l : list A) i d : Forall P l -> (i < length l)%nat -> P (nth i l d).
Proof. intros h hi. rewrite Forall_forall in h. apply h. apply nth_In. exact hi. Qed.
Lemma magnitude_le x h m g k : Forall (fun v => Rabs (real v) <= m) x -> (forall i, (i < length h)%nat -> Rabs (real (nth i h fzero)) <= g) -> 0 <= m -> 0 <= g ->
  0 <= magnitude x h k <= INR (Nat.min (length x) (length h)) * (m * g).
Proof.
  intros hx hh hm hg. split.
  - unfold magnitude. rewrite csum_full. eapply Rle_trans; [apply Req_le; symmetry; apply (rsumf_zero (S k))|]. apply rsumf_le. intros i _. apply Rmult_le_pos.
    + destruct (Nat.lt_ge_cases i (length x)); [rewrite nth_abs by assumption; apply Rabs_pos|rewrite nth_overflow by (rewrite map_length; assumption); lra].
    + destruct (Nat.lt_ge_cases (k - i) (length h)); [rewrite nth_abs by assumption; apply Rabs_pos|rewrite nth_overflow by (rewrite map_length; assumption); lra].
  - unfold magnitude. eapply Rle_trans; [apply Rle_abs|]. rewrite <- (map_length (fun v => Rabs (real v)) x) at 1. rewrite <- (map_length (fun v => Rabs (real v)) h). apply csum_le.
    + apply Rmult_le_pos; assumption.
    + rewrite !map_length. intros i j hi hj. rewrite !nth_abs by assumption. apply Rabs_prod_le; rewrite Rabs_Rabsolu; [|apply hh; exact hj]. apply (Forall_nth_d _ x i fzero hx hi).
Qed.
Lemma near_filtered x h k e m g y : near_kernel e h k -> (forall i, (i < length h)%nat -> Rabs (real (nth i h fzero)) <= g) -> 0 <= e -> 0 <= g -> (2 <= length h)%nat -> INR (length h) <= IZR (2 ^ 50) ->
  Forall finite x -> Forall (fun v => Rabs (real v) <= m) x -> 0 <= m -> INR (length h) * (m * g) <= IZR (2 ^ 998) ->
  y = conv_samples f64 fzero fadd fmul x h 0 (length x) -> filtered (filter_error m e g (length h)) x k y.
Proof.
  intros [lk nk] hg he hg0 h2 h50 fx hx hm hmax ->. assert (fh : Forall finite h) by (apply Forall_nth_all with (d := fzero); intros i hi; apply nk; lia).
  split; [unfold conv_samples; rewrite map_length, seq_length; reflexivity|]. intros i hi.
  set (n := Nat.min (length x) (length h)). assert (hn : INR n <= INR (length h)) by (apply le_INR; lia). assert (hn0 : 0 <= INR n) by apply pos_INR. assert (hmg : 0 <= m * g) by (apply Rmult_le_pos; assumption).
  assert (mag : forall j, magnitude x h j <= INR (length h) * (m * g)). { intros j. eapply Rle_trans; [apply (magnitude_le x h m g j hx hg hm hg0)|]. apply Rmult_le_compat_r; assumption. }
  destruct (samples_ok x h 0 (length x) fx fh) with (i := i) as (v & ev & [fv hv]); auto.
  { fold n. lra. } { intros j. eapply Rle_trans; [apply mag|exact hmax]. }
  rewrite (nth_error_nth_eq _ _ _ fzero ev). split; [exact fv|]. cbn [Nat.add] in hv.
  assert (k1 : Rabs (exact_sample x h i - csum (map real x) k i) <= INR n * (m * e)).
  { unfold exact_sample. assert (en : n = Nat.min (length (map real x)) (length (map real h))) by (rewrite !map_length; reflexivity). rewrite en. apply csum_near; auto; [rewrite map_length; lia|apply Rmult_le_pos; assumption|].
    rewrite !map_length. intros a b ha hb. rewrite !nth_real by assumption. rewrite <- Rmult_minus_distr_l. apply Rabs_prod_le; [apply (Forall_nth_d _ x a fzero hx ha)|apply nk; lia]. }
  assert (hmag := magnitude_le x h m g i hx hg hm hg0). fold n in hmag. unfold error_bound in hv. fold n in hv.
  eapply Rle_trans; [apply (via _ _ _ _ _ hv k1)|]. unfold filter_error. pose proof u_pos as hu. fold u in hv |- *. set (N := INR (length h)) in *. assert (hN : 2 <= N) by (unfold N; change 2 with (INR 2); apply le_INR; exact h2).
  assert (ht : 0 < / IZR (2 ^ 1022)) by (apply Rinv_0_lt_compat; apply IZR_lt; reflexivity).
  assert (q1 : (2 * INR n + 2) * u * magnitude x h i <= 3 * N * u * (N * (m * g))).
  { apply Rmult_le_compat; [apply Rmult_le_pos; lra|lra| |].
    - apply Rmult_le_compat_r; lra.
    - eapply Rle_trans; [apply hmag|]. apply Rmult_le_compat_r; lra. }
  assert (q2 : INR n * (m * e) <= N * (m * e)) by (apply Rmult_le_compat_r; [apply Rmult_le_pos; assumption|lra]).
  assert (q3 : 2 * INR n * / IZR (2 ^ 1022) <= 2 * N * / IZR (2 ^ 1022)) by (apply Rmult_le_compat_r; lra). lra.
Qed.
