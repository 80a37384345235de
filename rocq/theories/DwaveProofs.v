From Coq Require Import ZArith Reals List Lia Lra.
From Flocq Require Import Core BinarySingleNaN.
From Verif Require Import Base SeqModel SeqSpec SeqLifeSpec SeqRenderSpec EvModel EvSpec Ev3Proofs DblModel DblSpec DblProofs Dbl2Proofs DlineProofs DfftModel DfftProofs DkerModel DkerSpec DkerProofs Dker2Proofs Dker3Proofs DconvProofs DwaveSpec ConfProofs.
Import ListNotations.
Open Scope R_scope.

Lemma sin_mod (n x : Z) : (0 < n)%Z -> sin (2 * PI * IZR (x mod n) / IZR n) = sin (2 * PI * IZR x / IZR n).
Proof.
  intros hn. assert (h0 : IZR n <> 0) by (apply Rgt_not_eq; apply IZR_lt; exact hn). pose proof (Z.div_mod x n ltac:(lia)) as e. set (q := (x / n)%Z) in *. set (r := (x mod n)%Z) in *.
  replace (2 * PI * IZR x / IZR n) with (2 * PI * IZR r / IZR n + 2 * IZR q * PI) by (rewrite e, plus_IZR, mult_IZR; field; exact h0).
  destruct (Z_le_gt_dec 0 q) as [hq|hq].
  - replace (IZR q) with (INR (Z.to_nat q)) by (rewrite INR_IZR_INZ, Z2Nat.id by exact hq; reflexivity). symmetry. apply sin_period.
  - set (a := 2 * PI * IZR r / IZR n). rewrite <- (sin_period (a + 2 * IZR q * PI) (Z.to_nat (- q))). f_equal. rewrite INR_IZR_INZ, Z2Nat.id by lia. rewrite opp_IZR. ring.
Qed.
Lemma stage_fold silence c j : forall l f ch,
  fold_left (fun f cc => frame_add f64 fadd f (channel _ cc) (wave_value f64 fmul silence c cc 0 j)) l f ch =
  fold_left fadd (map (fun cc => wave_value f64 fmul silence c cc 0 j) (filter (fun cc => channel _ cc =? ch)%nat l)) (f ch).
Proof.
  induction l as [|cc l IH]; intros f ch; cbn [fold_left filter map]; [reflexivity|]. rewrite IH. unfold frame_add at 1. rewrite Nat.eqb_sym. destruct (channel _ cc =? ch)%nat; reflexivity.
Qed.
Definition values (events : list (event (wave_config f64))) (t ch : nat) : list f64 :=
  flat_map (fun e => if active _ e t then
    map (fun cc => wave_value f64 fmul fzero (ev_data _ e) cc 0 (t - ev_start _ e)) (filter (fun cc => channel _ cc =? ch)%nat (firstn (channel_count _ (ev_data _ e)) (channel_config _ (ev_data _ e)))) else []) events.
Lemma frame_fold t ch : forall events (x : EvModel.frame f64),
  SeqRenderSpec.frame (EvModel.frame f64) _ (map (fun e => (e, wave_stage f64 fadd fmul fzero (ev_data _ e) 0)) events) t x ch = fold_left fadd (values events t ch) (x ch).
Proof.
  unfold SeqRenderSpec.frame, values. induction events as [|e events IH]; intros x; cbn [map fold_left flat_map fst snd]; [reflexivity|]. rewrite IH, fold_left_app. f_equal.
  destruct (active _ e t); [|reflexivity]. unfold wave_stage. apply stage_fold.
Qed.
Section Near.
Variables (d : R) (k : nat) (table : list f64).
Hypothesis hd : 0 <= d <= / 1000000.
Hypothesis hk : (0 < k)%nat.
Hypothesis lt : length table = (2 * k)%nat.
Hypothesis ht : forall i, (i < 2 * k)%nat -> finite (nth i table fzero) /\ Rabs (real (nth i table fzero) - sin (2 * PI * INR i / INR (2 * k))) <= d + 16 * u.

Lemma value_near (c : wave_config f64) cc channels n i : wvf _ c = table -> wave_valid f64 channels n c -> In cc (firstn (channel_count _ c) (channel_config _ c)) -> unit_amplitudes c -> (i < n)%nat ->
  let v := wave_value f64 fmul fzero c cc 0 i in finite v /\ Rabs (real v - exact_sine (2 * k) cc i) <= d + 19 * u /\ Rabs (exact_sine (2 * k) cc i) <= 1.
Proof.
  intros hw (_ & hs & hs2 & hv) hin ha hi v. rewrite Forall_forall in hv. destruct (hv cc hin) as (_ & (am & eam & lam) & _ & _ & _ & _). unfold unit_amplitudes in ha. rewrite Forall_forall in ha. destruct (ha cc hin) as (fa & ba & bm). specialize (bm am eam).
  unfold v, wave_value, exact_sine. rewrite eam. rewrite hs, hw, lt in *. unfold wave_index. rewrite Nat.sub_0_r. set (x := (phs f64 cc + frequency_sum f64 cc 0 i + modulation (pmod f64 cc) i)%Z).
  assert (hm : (0 <= x mod Z.of_nat (2 * k) < Z.of_nat (2 * k))%Z) by (apply Z.mod_pos_bound; lia). set (j := Z.to_nat (x mod Z.of_nat (2 * k))).
  assert (hj : (j < 2 * k)%nat) by (unfold j; lia). destruct (ht j hj) as [fw ew]. assert (es : sin (2 * PI * INR j / INR (2 * k)) = sin (2 * PI * IZR x / INR (2 * k))).
  { rewrite (INR_IZR_INZ (2 * k)). rewrite <- (sin_mod (Z.of_nat (2 * k)) x) by lia. unfold j. rewrite (INR_IZR_INZ (Z.to_nat _)), Z2Nat.id by lia. reflexivity. }
  rewrite es in ew. set (s := sin (2 * PI * IZR x / INR (2 * k))) in *. assert (hs1 : Rabs s <= 1) by (unfold s; apply Rabs_le; pose proof (SIN_bound (2 * PI * IZR x / INR (2 * k))); lra).
  rewrite Forall_forall in bm. destruct (bm (nth i am fzero)) as [fm mm]; [apply nth_In; lia|]. set (A := amp f64 cc) in *. set (M := nth i am fzero) in *. set (W := nth j table fzero) in *.
  pose proof u_pos as hu. pose proof u_tiny as hut.
  destruct (fmul_near A M (real A) (real M) 0 0 1 1 fa fm) as [f1 e1]; try lra; [rewrite Rminus_diag_eq, Rabs_R0 by reflexivity; lra|rewrite Rminus_diag_eq, Rabs_R0 by reflexivity; lra|].
  assert (AM : Rabs (real A * real M) <= 1) by (rewrite <- (Rmult_1_r 1); apply Rabs_prod_le; assumption).
  assert (b1 : Rabs (real (fmul A M)) <= 1 + 11 / 10 * u) by (eapply Rle_trans; [apply (near_bound _ _ _ _ e1 AM)|]; lra).
  assert (bW : Rabs (real W) <= 1 + (d + 16 * u)) by (apply (near_bound _ _ _ _ ew hs1)).
  destruct (fmul_near (fmul A M) W (real A * real M) s _ _ (1 + 11 / 10 * u) 1 f1 fw e1 ew b1 hs1 bW) as [f2 e2]; [nra|]. split; [exact f2|]. split; [|rewrite <- (Rmult_1_r 1); apply Rabs_prod_le; assumption].
  eapply Rle_trans; [exact e2|]. assert (u * u <= u / 1000) by nra. assert (u * d <= u / 1000) by nra. assert (u * u * d <= u / 1000) by nra. assert (u * u * u <= u / 1000) by nra. lra.
Qed.
Lemma values_near channels events t ch : Forall (fun e => wvf _ (ev_data _ e) = table /\ wave_valid f64 channels (ev_end _ e - ev_start _ e) (ev_data _ e) /\ unit_amplitudes (ev_data _ e)) events ->
  Forall2 (fun v x => finite v /\ Rabs (real v - x) <= d + 19 * u /\ Rabs x <= 1) (values events t ch) (sounding (2 * k) events t ch).
Proof.
  unfold values, sounding. induction events as [|e events IH]; intros h; cbn [flat_map]; [constructor|]. apply Forall_cons_iff in h as [(h1 & h2 & h3) h]. apply Forall2_app; [|exact (IH h)].
  destruct (active _ e t) eqn:ea; [|constructor]. unfold active in ea. apply andb_prop in ea as [a1 a2]. apply Nat.leb_le in a1. apply Nat.ltb_lt in a2.
  set (all := firstn (channel_count _ (ev_data _ e)) (channel_config _ (ev_data _ e))). assert (sub : forall cc, In cc (filter (fun cc => channel _ cc =? ch)%nat all) -> In cc all) by (intros cc hc; apply filter_In in hc; apply hc).
  induction (filter _ all) as [|cc l IHl]; cbn [map]; [constructor|]. constructor.
  - apply (value_near (ev_data _ e) cc channels (ev_end _ e - ev_start _ e)); auto; [apply sub; left; reflexivity|lia].
  - apply IHl. intros x hx. apply sub. right. exact hx.
Qed.
End Near.
Lemma near_total e m : forall (l : list f64) (x : list R), Forall2 (fun v x => finite v /\ Rabs (real v - x) <= e /\ Rabs x <= m) l x -> Forall finite l /\ length l = length x /\
  Rabs (rsum (map real l) - total x) <= INR (length x) * e /\ 0 <= rsum (map (fun v => Rabs (real v)) l) <= INR (length x) * (m + e).
Proof.
  induction 1 as [|v y l x (fv & hv & my) h IH]; [cbn; rewrite Rminus_0_r, Rabs_R0; split; [constructor|]; split; [reflexivity|]; lra|]. destruct IH as (f & n & a & b). cbn [map rsum fold_right total length]. rewrite S_INR. fold (rsum (map real l)) (rsum (map (fun v => Rabs (real v)) l)) (total x) in *.
  split; [constructor; assumption|]. split; [lia|]. split.
  - replace (real v + rsum (map real l) - (y + total x)) with ((real v - y) + (rsum (map real l) - total x)) by ring. eapply Rle_trans; [apply Rabs_triang|]. lra.
  - pose proof (Rabs_pos (real v)). pose proof (near_bound _ _ _ _ hv my). lra.
Qed.
Lemma mix_near d fcos fsin k junk table channels t blocks (h : heap (wave_config f64)) head L : libm_near d fcos fsin -> 0 <= d <= / 1000000 -> (0 < k)%nat -> (Z.of_nat (2 * k) < 2 ^ 32)%Z -> length junk = (2 * k)%nat ->
  sine_period64 fsin (2 * k) junk = Some table -> represents _ h head L -> sorted _ (map snd L) ->
  Forall (fun e => (ev_start _ e <= ev_end _ e /\ t <= ev_start _ e)%nat /\ ev_prepare _ e = false /\ wvf _ (ev_data _ e) = table /\ wave_valid f64 channels (ev_end _ e - ev_start _ e) (ev_data _ e) /\
    wave_small f64 (ev_data _ e) /\ unit_amplitudes (ev_data _ e)) (map snd L) ->
  blocks_exact (EvModel.frame f64) t blocks ->
  exists r, run_blocks (EvModel.frame f64) _ (wave_event_prepare f64) (wave_event_generate f64 fadd fmul channels) t blocks head h = Some r /\ rr_ok _ _ r = true /\
    forall i before, nth_error (concat (map snd blocks)) i = Some before -> exists after, nth_error (concat (rr_outs _ _ r)) i = Some after /\
      forall ch, let s := sounding (2 * k) (map snd L) (t + i) ch in let n := INR (length s) in
        finite (before ch) -> Rabs (real (before ch)) <= IZR (2 ^ 900) -> n * u <= / 2 ->
        finite (after ch) /\ Rabs (real (after ch) - (real (before ch) + total s)) <= n * (d + 19 * u) + 2 * n * u * (Rabs (real (before ch)) + 2 * n).
Proof.
  intros libm hd hk h32 lj et hr hs he hb. destruct (table_near d fcos fsin k junk libm hk h32 lj) as (o & eo & lo & ho). rewrite et in eo. injection eo as <-.
  destruct (wave_rendered f64 fadd fmul fzero channels t blocks h head L hr hs) as (r & e1 & e2 & e3); [|exact hb|].
  { eapply Forall_impl; [|exact he]. intros e (a & b & _ & c & x & _). splits; auto; apply a. }
  exists r. split; [exact e1|]. split; [exact e2|]. intros i before hi. rewrite e3. unfold render. exists (SeqRenderSpec.frame _ _ (map (fun e => (e, wave_stage f64 fadd fmul fzero (ev_data _ e) 0)) (map snd L)) (t + i) before). split; [apply nth_error_mapi; exact hi|].
  intros ch fb bb nu. set (ev := map snd L) in *. set (s := sounding (2 * k) ev (t + i) ch) in *. set (n := INR (length s)) in *. rewrite frame_fold. assert (hv : Forall2 (fun v x => finite v /\ Rabs (real v - x) <= d + 19 * u /\ Rabs x <= 1) (values ev (t + i) ch) s).
  { apply (values_near d k table hd hk lo ho channels). eapply Forall_impl; [|exact he]. intros e (_ & _ & a & b & _ & c). auto. }
  destruct (near_total _ _ _ _ hv) as (fl & el & es & ea). fold n in es, ea. pose proof u_pos as hu. pose proof u_tiny as hut. assert (n0 : 0 <= n) by apply pos_INR.
  assert (ea2 : rsum (map (fun v => Rabs (real v)) (values ev (t + i) ch)) <= 2 * n) by (assert (n * (1 + (d + 19 * u)) <= n * 2) by (apply Rmult_le_compat_l; lra); lra).
  assert (nb : 2 * n <= B 54). { pose proof u_num as eu. assert (e54 : B 54 = 2 * IZR (2 ^ 53)) by (rewrite (IZR_pow2 53) by lia; change 2 with (B 1); rewrite <- bpow_plus; reflexivity). rewrite e54. assert (p53 : 0 < IZR (2 ^ 53)) by (apply IZR_lt; reflexivity). assert (n * u * IZR (2 ^ 53) <= / 2 * IZR (2 ^ 53)) by (apply Rmult_le_compat_r; lra). rewrite Rmult_assoc, eu in H. lra. }
  rewrite (IZR_pow2 900) in bb by lia. assert (sum : B 900 + B 54 <= B 1000). { assert (B 54 <= B 900) by (apply bpow_le; lia). assert (2 * B 900 = B 901) by (change 2 with (B 1); rewrite <- bpow_plus; reflexivity). assert (B 901 <= B 1000) by (apply bpow_le; lia). lra. }
  destruct (fold_sum (values ev (t + i) ch) (before ch) 0 (real (before ch)) (Rabs (real (before ch))) fb fl (Rabs_pos _)) as [ff fe].
  - lra.
  - rewrite el. cbn [Nat.add]. exact nu.
  - lra.
  - rewrite Rminus_diag_eq, Rabs_R0 by reflexivity. cbn [INR]. lra.
  - split; [exact ff|]. rewrite el in fe. cbn [Nat.add] in fe. fold n in fe.
    replace (real (fold_left fadd (values ev (t + i) ch) (before ch)) - (real (before ch) + total s)) with ((real (fold_left fadd (values ev (t + i) ch) (before ch)) - (real (before ch) + rsum (map real (values ev (t + i) ch)))) + (rsum (map real (values ev (t + i) ch)) - total s)) by ring.
    eapply Rle_trans; [apply Rabs_triang|]. assert (2 * n * u * (Rabs (real (before ch)) + rsum (map (fun x => Rabs (real x)) (values ev (t + i) ch))) <= 2 * n * u * (Rabs (real (before ch)) + 2 * n)) by (apply Rmult_le_compat_l; [apply Rmult_le_pos; lra|lra]). lra.
Qed.
Lemma plain_sine period cc i : fmod _ cc = None -> pmod _ cc = None ->
  exact_sine period cc i = real (amp _ cc) * real (nth i (match amod _ cc with Some l => l | None => [] end) fzero) * sin (2 * PI * (IZR (phs _ cc) + IZR (frq _ cc) * INR i) / INR period).
Proof.
  intros h1 h2. unfold exact_sine. rewrite h2. cbn [modulation]. rewrite Z.add_0_r. replace (frequency_sum f64 cc 0 i) with (frq _ cc * Z.of_nat i)%Z; [rewrite plus_IZR, mult_IZR, <- INR_IZR_INZ; reflexivity|].
  induction i as [|i IH]; cbn [frequency_sum]; [lia|]. rewrite <- IH, h1. cbn [modulation]. lia.
Qed.
