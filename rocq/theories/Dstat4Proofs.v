(** Scaling samples to times *)
From Coq Require Import ZArith Reals List Bool Lia Lra Psatz.
From Flocq Require Import Core BinarySingleNaN.
From Verif Require Import Base DblModel DblSpec DblProofs Dbl2Proofs ArrProofs KerProofs DlineProofs DfftModel DfftProofs DkerProofs Dker2Proofs SortModel DstatModel DstatSpec DstatProofs Dstat2Proofs.
Import ListNotations.
Open Scope R_scope.

Lemma fabs_real (a : f64) : finite a -> finite (fabs64 a) /\ real (fabs64 a) = Rabs (real a).
Proof. intros h. split; [unfold finite, fabs64; rewrite is_finite_Babs; exact h|]. unfold real, fabs64. apply B2R_Babs. Qed.
(** the value that is rounded, and the result *)
Definition scaled (f x : R) := rnd (x * f).
Definition to_time (z : R) : Z := Zfloor (rnd (/ 2 + z)).
Lemma to_time_le a b : a <= b -> (to_time a <= to_time b)%Z.
Proof. intros h. apply Zfloor_le, rnd_le. lra. Qed.
Lemma u32 : u * 4294967296 <= / 2000000 /\ tiny <= / 1000000000.
Proof.
  split.
  - pose proof u_num as e. change (2 ^ 53)%Z with 9007199254740992%Z in e. pose proof u_pos. lra.
  - assert (B (-1022) <= B (-30)) by (apply bpow_le; lia). change (B (-30)) with (/ IZR (2 ^ 30)) in H. assert (/ IZR (2 ^ 30) <= / 1000000000) by (apply Rinv_le_contravar; [lra|]; apply IZR_le; lia). lra.
Qed.
Lemma to_time_near z M t e : (0 <= M < 2 ^ 32)%Z -> 0 <= z -> 0 <= t <= IZR M -> Rabs (z - t) <= e -> e <= / 380000 ->
  (0 <= to_time z <= M)%Z /\ Rabs (IZR (to_time z) - t) <= / 2 + e + / 1000000 /\ (t = IZR M -> to_time z = M).
Proof.
  intros hM z0 ht hz he. destruct u32 as [u1 t1]. pose proof u_pos as hu. assert (M32 : IZR M <= 4294967295) by (apply IZR_le; lia). assert (M0 : 0 <= IZR M) by (apply IZR_le; lia). apply Rabs_le_inv in hz.
  assert (hr : Rabs (rnd (/ 2 + z) - (/ 2 + z)) <= / 1000000). { eapply Rle_trans; [apply rnd_any|]. rewrite Rabs_right by lra. assert (u * (/ 2 + z) <= u * 4294967296) by (apply Rmult_le_compat_l; lra). lra. }
  apply Rabs_le_inv in hr. unfold to_time. set (r := rnd (/ 2 + z)) in *. pose proof (Zfloor_lb r) as l1. pose proof (Zfloor_ub r) as l2. set (k := Zfloor r) in *.
  assert (r0 : 0 <= r) by (apply rnd_pos; lra). assert (k0 : (0 <= k)%Z) by (apply Zfloor_lub; exact r0).
  assert (kM : (k <= M)%Z). { assert (k < M + 1)%Z; [|lia]. apply lt_IZR. rewrite plus_IZR. lra. }
  split; [lia|]. split; [apply Rabs_le; lra|]. intros ->. assert (M < k + 1)%Z; [|lia]. apply lt_IZR. rewrite plus_IZR. lra.
Qed.
Lemma round_value (a : f64) : finite a -> 0 <= real a -> rnd (/ 2 + real a) < IZR (2 ^ 32) -> real a <= B 40 -> cheap_round64 a = Some (to_time (real a)).
Proof.
  intros f h0 h1 h2. destruct fhalf_real as [hh eh]. assert (B 40 + / 2 <= B 1022) by (assert (k : B 41 <= B 1022) by (apply bpow_le; lia); assert (e : B 41 = 2 * B 40) by (change 2 with (B 1); rewrite <- bpow_plus; reflexivity); assert (1 <= B 40) by (change 1 with (B 0); apply bpow_le; lia); lra).
  destruct (fadd_ok fhalf a hh f) as (f1 & r1 & _); [rewrite eh; rewrite Rabs_right; lra|]. rewrite eh in r1. unfold cheap_round64. unfold to_time. rewrite <- r1 in *. pose proof (Zfloor_lb (real (fadd fhalf a))) as l1. pose proof (Zfloor_ub (real (fadd fhalf a))) as l2.
  apply time_of_f64_some; [exact f1| |lra]. split; [apply Zfloor_lub; rewrite r1; apply rnd_pos; lra|]. apply lt_IZR. lra.
Qed.
Lemma scale_value (lo hi : f64) (M : Z) (D := real hi - real lo) (rg := fsub hi lo) (f := fdiv (f_of_Z M) rg) : finite lo -> finite hi -> (0 <= M < 2 ^ 32)%Z -> B (-900) <= D <= B 990 ->
  finite f /\ 0 <= real f /\ forall x ad, finite x -> finite ad -> real ad = - real lo -> real lo <= real x <= real hi ->
    let z := fmul (fadd x ad) f in finite z /\ real z = rnd (rnd (real x - real lo) * real f) /\ 0 <= real z /\ Rabs (real z - IZR M * ((real x - real lo) / D)) <= / 380000 /\ cheap_round64 z = Some (to_time (real z)).
Proof.
  intros flo fhi hM hD. destruct u32 as [u1 t1]. pose proof u_pos as hu. pose proof u_tiny as hut. assert (M32 : IZR M <= 4294967295) by (apply IZR_le; lia). assert (M0 : 0 <= IZR M) by (apply IZR_le; lia).
  assert (b900 : 0 < B (-900)) by apply bpow_gt_0. assert (b1022 : B 990 <= B 1022) by (apply bpow_le; lia).
  destruct (fsub_ok hi lo fhi flo) as (frg & erg & _); [rewrite Rabs_right; fold D; lra|]. fold rg in frg, erg. fold D in erg.
  assert (nD : B (-1022) <= Rabs D). { rewrite Rabs_right by lra. assert (B (-1022) <= B (-900)) by (apply bpow_le; lia). lra. }
  destruct (rnd_rel_normal D nD) as (e1 & he1 & ee1). rewrite <- erg in ee1. apply Rabs_le_inv in he1.
  assert (rgD : D * (1 - u) <= real rg <= D * (1 + u)). { rewrite ee1. split; apply Rmult_le_compat_l; lra. }
  assert (rg0 : 0 < real rg). { assert (0 < D * (1 - u)) by (apply Rmult_lt_0_compat; lra). lra. }
  destruct (f_of_Z_exact M ltac:(lia)) as [fM eM].
  assert (q0 : 0 <= IZR M / real rg) by (apply Rmult_le_pos; [lra|left; apply Rinv_0_lt_compat; lra]).
  assert (qr : IZR M / real rg * real rg = IZR M) by (field; lra).
  assert (rg900 : B (-901) <= real rg). { assert (e : B (-900) = 2 * B (-901)) by (change 2 with (B 1); rewrite <- bpow_plus; reflexivity). assert (D * / 2 <= D * (1 - u)) by (apply Rmult_le_compat_l; lra). lra. }
  assert (q1 : IZR M / real rg <= B 940). { apply (Rmult_le_reg_r (real rg)); [exact rg0|]. rewrite qr. apply Rle_trans with (B 940 * B (-901)); [|apply Rmult_le_compat_l; [left; apply bpow_gt_0|exact rg900]]. rewrite <- bpow_plus. assert (B 32 <= B (940 + -901)) by (apply bpow_le; lia). rewrite <- IZR_pow2 in H by lia. change (IZR (2 ^ 32)) with 4294967296 in H. lra. }
  destruct (fdiv_fin (f_of_Z M) rg fM ltac:(lra)) as [ff ef]; [rewrite eM, Rabs_right by lra; assert (B 940 <= B 1022) by (apply bpow_le; lia); lra|]. fold f in ff, ef. rewrite eM in ef.
  assert (f0 : 0 <= real f) by (rewrite ef; apply rnd_pos; exact q0).
  (* f rg is near M *)
  assert (hf : IZR M * (1 - u) <= real f * real rg <= IZR M * (1 + u)).
  { destruct (Z.eq_dec M 0) as [->|n0].
    - rewrite ef. replace (IZR 0 / real rg) with 0 by (unfold Rdiv; ring). replace (rnd 0) with 0 by (symmetry; apply round_0; apply valid_rnd_N). lra.
    - assert (M1 : 1 <= IZR M) by (apply IZR_le; lia). assert (hq : B (-1022) <= Rabs (IZR M / real rg)).
      { rewrite Rabs_right by lra. apply (Rmult_le_reg_r (real rg)); [exact rg0|]. rewrite qr. apply Rle_trans with (B (-1022) * B 991); [apply Rmult_le_compat_l; [left; apply bpow_gt_0|]|rewrite <- bpow_plus; assert (B (-1022 + 991) <= B 0) by (apply bpow_le; lia); change (B 0) with 1 in *; lra].
        assert (e : B 991 = 2 * B 990) by (change 2 with (B 1); rewrite <- bpow_plus; reflexivity). assert (D * (1 + u) <= D * 2) by (apply Rmult_le_compat_l; lra). lra. }
      destruct (rnd_rel_normal _ hq) as (e2 & he2 & ee2). apply Rabs_le_inv in he2. rewrite <- ef in ee2. rewrite ee2. replace (IZR M / real rg * (1 + e2) * real rg) with (IZR M * (1 + e2)) by (field; lra). split; apply Rmult_le_compat_l; lra. }
  split; [exact ff|]. split; [exact f0|]. intros x ad fx fad ead hx z.
  set (y := real x - real lo). assert (hy : 0 <= y <= D) by (unfold y, D; lra).
  destruct (fadd_ok x ad fx fad) as (fy & ey & e3 & he3 & ee3); [rewrite ead; replace (real x + - real lo) with y by (unfold y; ring); rewrite Rabs_right; lra|]. rewrite ead in ey, ee3. replace (real x + - real lo) with y in ey, ee3 by (unfold y; ring).
  assert (yr : 0 <= rnd y <= real rg). { split; [apply rnd_pos; lra|]. rewrite erg. apply rnd_le. lra. }
  assert (yy : y * (1 - u) <= rnd y <= y * (1 + u)). { apply Rabs_le_inv in he3. rewrite <- ey, ee3. split; apply Rmult_le_compat_l; lra. }
  (* rnd y f is near M y / D *)
  set (w := y / D). assert (yw : y = w * D) by (unfold w; field; lra). assert (hw : 0 <= w <= 1). { unfold w. split; [apply Rmult_le_pos; [lra|left; apply Rinv_0_lt_compat; lra]|]. apply (Rmult_le_reg_r D); [lra|]. replace (y / D * D) with y by (field; lra). lra. }
  assert (Dup : D * (1 - u) <= real rg) by lra. assert (fD : IZR M * (1 - 3 * u) <= real f * D <= IZR M * (1 + 3 * u)).
  { split.
    - assert (k : IZR M * (1 - u) <= real f * D * (1 + u)). { apply Rle_trans with (real f * real rg); [lra|]. rewrite Rmult_assoc. apply Rmult_le_compat_l; lra. }
      apply (Rmult_le_reg_r (1 + u)); [lra|]. eapply Rle_trans; [|exact k]. rewrite Rmult_assoc. apply Rmult_le_compat_l; [lra|]. nra.
    - assert (k : real f * D * (1 - u) <= IZR M * (1 + u)). { apply Rle_trans with (real f * real rg); [|lra]. rewrite Rmult_assoc. apply Rmult_le_compat_l; lra. }
      apply (Rmult_le_reg_r (1 - u)); [lra|]. eapply Rle_trans; [exact k|]. rewrite Rmult_assoc. apply Rmult_le_compat_l; [lra|]. nra. }
  assert (fD0 : 0 <= real f * D) by (apply Rmult_le_pos; lra).
  assert (Mu : IZR M * u <= / 2000000) by (rewrite Rmult_comm; assert (u * IZR M <= u * 4294967296) by (apply Rmult_le_compat_l; lra); lra). assert (Mu0 : 0 <= IZR M * u) by (apply Rmult_le_pos; lra).
  assert (pr : IZR M * w - 41 / 10 * (IZR M * u) <= rnd y * real f <= IZR M * w + 41 / 10 * (IZR M * u)).
  { assert (w1 : 0 <= IZR M * w <= IZR M) by (split; [apply Rmult_le_pos; lra|rewrite <- (Rmult_1_r (IZR M)) at 2; apply Rmult_le_compat_l; lra]). split.
    - apply Rle_trans with (w * ((real f * D) * (1 - u))); [|replace (w * (real f * D * (1 - u))) with (y * (1 - u) * real f) by (rewrite yw; ring); apply Rmult_le_compat_r; lra].
      apply Rle_trans with (w * (IZR M * (1 - 3 * u) * (1 - u))); [|apply Rmult_le_compat_l; [lra|]; apply Rmult_le_compat_r; lra].
      replace (w * (IZR M * (1 - 3 * u) * (1 - u))) with (IZR M * w - 4 * (w * (IZR M * u)) + 3 * (w * (IZR M * u)) * u) by ring. assert (0 <= w * (IZR M * u) <= IZR M * u). { split; [apply Rmult_le_pos; lra|]. rewrite <- (Rmult_1_l (IZR M * u)) at 2. apply Rmult_le_compat_r; lra. }
      assert (0 <= w * (IZR M * u) * u) by (apply Rmult_le_pos; lra). lra.
    - apply Rle_trans with (w * ((real f * D) * (1 + u))); [replace (w * (real f * D * (1 + u))) with (y * (1 + u) * real f) by (rewrite yw; ring); apply Rmult_le_compat_r; lra|].
      apply Rle_trans with (w * (IZR M * (1 + 3 * u) * (1 + u))); [apply Rmult_le_compat_l; [lra|]; apply Rmult_le_compat_r; lra|].
      replace (w * (IZR M * (1 + 3 * u) * (1 + u))) with (IZR M * w + 4 * (w * (IZR M * u)) + 3 * (w * (IZR M * u)) * u) by ring. assert (0 <= w * (IZR M * u) <= IZR M * u). { split; [apply Rmult_le_pos; lra|]. rewrite <- (Rmult_1_l (IZR M * u)) at 2. apply Rmult_le_compat_r; lra. }
      assert (w * (IZR M * u) * u <= IZR M * u * / 1000) by (apply Rmult_le_compat; lra). lra. }
  assert (p0 : 0 <= rnd y * real f) by (apply Rmult_le_pos; lra). assert (Mw : IZR M * w <= IZR M) by (rewrite <- (Rmult_1_r (IZR M)) at 2; apply Rmult_le_compat_l; lra).
  assert (B40 : 4294967297 <= B 40) by (rewrite <- IZR_pow2 by lia; apply IZR_le; lia).
  destruct (fmul_fin (fadd x ad) f fy ff) as [fz ez]; [rewrite ey, Rabs_right by lra; assert (B 40 <= B 1022) by (apply bpow_le; lia); lra|]. rewrite ey in ez. fold z in fz, ez.
  assert (z0 : 0 <= real z) by (rewrite ez; apply rnd_pos; exact p0).
  assert (zn : Rabs (real z - IZR M * w) <= / 380000). { rewrite ez. eapply Rle_trans; [apply (via _ (rnd y * real f) _ (/ 1900000) (41 / 10 * (IZR M * u)))|lra]; [|apply Rabs_le; lra]. eapply Rle_trans; [apply rnd_any|]. rewrite Rabs_right by lra. assert (u * (rnd y * real f) <= u * 4294967296) by (apply Rmult_le_compat_l; lra). lra. }
  splits; auto. apply Rabs_le_inv in zn. apply round_value; [exact fz|exact z0| |lra].
  assert (Rabs (rnd (/ 2 + real z) - (/ 2 + real z)) <= / 1000000). { eapply Rle_trans; [apply rnd_any|]. rewrite Rabs_right by lra. assert (u * (/ 2 + real z) <= u * 4294967296) by (apply Rmult_le_compat_l; lra). lra. }
  apply Rabs_le_inv in H. change (IZR (2 ^ 32)) with 4294967296. lra.
Qed.
