(** Proofs about conversions in double precision *)
From Coq Require Import ZArith Reals List Lia Lra.
From Flocq Require Import Core BinarySingleNaN Plus_error Relative.
From Verif Require Import Base DblModel DblSpec DblProofs.
Import ListNotations.
Open Scope R_scope.

Lemma format_FLT_make m e : (Z.abs m < 2 ^ 53)%Z -> (-1074 <= e)%Z -> generic_format radix2 fexp64 (IZR m * B e).
Proof.
  intros hm he. apply generic_format_FLT. apply (FLT_spec _ _ _ _ (Float radix2 m e)); [reflexivity|exact hm|exact he].
Qed.
Lemma fmake_exact m e : (Z.abs m < 2 ^ 53)%Z -> (-1074 <= e <= 971)%Z -> finite (fmake m e) /\ real (fmake m e) = IZR m * B e.
Proof.
  intros hm he. pose proof (binary_normalize_correct 53 1024 prec64 emax64 mode_NE m e false) as p. cbv zeta in p. change (F2R {| Fnum := m; Fexp := e |}) with (IZR m * B e) in p.
  rewrite fexp64_eq in p. change (round_mode mode_NE) with ZnearestE in p. rewrite (round_generic _ _ _ _ (format_FLT_make m e hm (proj1 he))) in p.
  rewrite Rlt_bool_true in p; [split; apply p|]. rewrite Rabs_mult, <- abs_IZR, (Rabs_pos_eq (B e)) by apply bpow_ge_0.
  apply Rlt_le_trans with (B 53 * B e); [apply Rmult_lt_compat_r; [apply bpow_gt_0|]; apply (IZR_lt _ (2 ^ 53)), hm|]. rewrite <- bpow_plus. apply bpow_le. lia.
Qed.
Lemma f_of_Z_exact z : (Z.abs z < 2 ^ 53)%Z -> finite (f_of_Z z) /\ real (f_of_Z z) = IZR z.
Proof. intros h. destruct (fmake_exact z 0 h ltac:(lia)) as [h1 h2]. split; [exact h1|]. unfold f_of_Z. rewrite h2. cbn [bpow]. ring. Qed.
Lemma fhalf_real : finite fhalf /\ real fhalf = / 2.
Proof. destruct (fmake_exact 1 (-1) ltac:(cbn; lia) ltac:(lia)) as [h1 h2]. split; [exact h1|]. unfold fhalf. rewrite h2. change (B (-1)) with (/ 2). lra. Qed.

(** the conversion to integers *)
Lemma trunc_real (a : f64) : Btrunc a = Ztrunc (real a).
Proof. apply eq_IZR. rewrite (Btrunc_correct 53 1024 emax64). unfold round, F2R, scaled_mantissa, cexp, FIX_exp. cbn [Fnum Fexp]. cbn [bpow Z.opp]. rewrite !Rmult_1_r. reflexivity. Qed.
Lemma time_of_f64_some a z : finite a -> (0 <= z < 2 ^ 32)%Z -> IZR z <= real a < IZR z + 1 -> time_of_f64 a = Some z.
Proof.
  intros hf hz h. unfold time_of_f64. rewrite hf. rewrite trunc_real. replace (Ztrunc (real a)) with z.
  - cbv zeta. replace (_ && _)%bool with true; [reflexivity|]. symmetry. apply andb_true_intro. split; [apply Z.leb_le|apply Z.ltb_lt]; lia.
  - symmetry. rewrite Ztrunc_floor; [|apply Rle_trans with (IZR z); [apply IZR_le; lia|lra]]. apply Zfloor_imp. rewrite plus_IZR. lra.
Qed.
Lemma time_of_f64_none a : finite a -> IZR (2 ^ 32) <= real a -> time_of_f64 a = None.
Proof.
  intros hf h. unfold time_of_f64. rewrite hf, trunc_real. cbv zeta. replace (_ && _)%bool with false; [reflexivity|]. symmetry. apply andb_false_intro2. apply Z.ltb_ge.
  rewrite Ztrunc_floor; [|apply Rle_trans with (IZR (2 ^ 32)); [apply IZR_le; lia|exact h]]. apply Zfloor_lub. exact h.
Qed.

(** multiplication and division of numbers that are not near the limits *)
Lemma rnd_rel x : B (-1000) <= Rabs x -> exists e, Rabs e <= u /\ rnd x = x * (1 + e).
Proof.
  intros h. assert (rx : Rabs (rnd x - x) <= u * Rabs x).
  { eapply Rle_trans; [apply (relative_error_N_FLT radix2 (-1074) 53 ltac:(lia) (fun z => negb (Z.even z)))|].
    - eapply Rle_trans; [|exact h]. apply bpow_le. lia.
    - right. f_equal. rewrite u_val. change (/ 2) with (B (-1)). rewrite <- bpow_plus. reflexivity. }
  assert (x0 : x <> 0). { intros ->. rewrite Rabs_R0 in h. pose proof (bpow_gt_0 radix2 (-1000)). lra. }
  exists ((rnd x - x) / x). split; [|field; exact x0]. unfold Rdiv. rewrite Rabs_mult, Rabs_inv.
  assert (0 < Rabs x) by (apply Rabs_pos_lt; exact x0). apply (Rmult_le_reg_r (Rabs x)); [assumption|]. rewrite Rmult_assoc, Rinv_l by lra. lra.
Qed.

Lemma fdiv_ok a b : finite a -> real b <> 0 -> B (-1000) <= Rabs (real a / real b) <= B 1022 -> finite (fdiv a b) /\ real (fdiv a b) = rnd (real a / real b).
Proof.
  intros ha hb [h1 h2]. pose proof (Bdiv_correct 53 1024 _ _ mode_NE a b hb) as p. change (round_mode mode_NE) with ZnearestE in p. rewrite fexp64_eq in p. fold (real a) (real b) in p.
  rewrite Rlt_bool_true in p; [split; [unfold finite; rewrite <- ha|]; apply p|]. destruct (rnd_rel _ h1) as (e & he & ->). rewrite Rabs_mult. pose proof big_double. pose proof (bpow_gt_0 radix2 1022). pose proof u_half.
  assert (Rabs (1 + e) <= 2) by (apply Rabs_le; apply Rabs_le_inv in he; lra). pose proof (Rabs_pos (real a / real b)). pose proof (Rabs_pos (1 + e)). nra.
Qed.
Lemma fmul_ok a b : finite a -> finite b -> B (-1000) <= Rabs (real a * real b) <= B 1022 -> finite (fmul a b) /\ real (fmul a b) = rnd (real a * real b).
Proof.
  intros ha hb [h1 h2]. pose proof (Bmult_correct 53 1024 _ _ mode_NE a b) as p. change (round_mode mode_NE) with ZnearestE in p. rewrite fexp64_eq in p. fold (real a) (real b) in p.
  rewrite Rlt_bool_true in p; [destruct p as (p1 & p2 & _); split; [unfold finite, fmul; rewrite p2, ha, hb; reflexivity|exact p1]|].
  destruct (rnd_rel _ h1) as (e & he & ->). rewrite Rabs_mult. pose proof big_double. pose proof (bpow_gt_0 radix2 1022). pose proof u_half.
  assert (Rabs (1 + e) <= 2) by (apply Rabs_le; apply Rabs_le_inv in he; lra). pose proof (Rabs_pos (real a * real b)). pose proof (Rabs_pos (1 + e)). nra.
Qed.
Lemma rnd_le x y : x <= y -> rnd x <= rnd y.
Proof. apply round_le; auto with typeclass_instances. Qed.
Lemma rnd_id x : generic_format radix2 fexp64 x -> rnd x = x.
Proof. apply round_generic; auto with typeclass_instances. Qed.
Lemma format_IZR z : (Z.abs z < 2 ^ 53)%Z -> generic_format radix2 fexp64 (IZR z).
Proof. intros h. rewrite <- (Rmult_1_r (IZR z)). change 1 with (B 0). apply format_FLT_make; lia. Qed.

(** frequencies as factors *)
Lemma two32 : IZR (2 ^ 32) = B 32. Proof. reflexivity. Qed.
Lemma factor_round_trip rate x : (1 <= rate < 2 ^ 32)%Z -> (0 <= x < 2 ^ 32)%Z ->
  exists z, factor_to_hz64 rate (hz_to_factor64 rate x) = Some z /\ (x - 1 <= z <= x)%Z.
Proof.
  intros hr hx. destruct (f_of_Z_exact rate ltac:(lia)) as [fr er]. destruct (f_of_Z_exact x ltac:(lia)) as [fx ex]. unfold factor_to_hz64, hz_to_factor64.
  assert (r1 : 1 <= IZR rate) by (apply (IZR_le 1); lia). assert (r2 : IZR rate < B 32) by (rewrite <- two32; apply IZR_lt; lia).
  assert (x2 : IZR x < B 32) by (rewrite <- two32; apply IZR_lt; lia).
  destruct (Z.eq_dec x 0) as [->|x0].
  - exists 0%Z. split; [|lia]. assert (e0 : exists s, f_of_Z 0 = B754_zero s) by (eexists; reflexivity). destruct e0 as [s e0].
    assert (d0 : fdiv (f_of_Z 0) (f_of_Z rate) = B754_zero (xorb s (Bsign (f_of_Z rate)))).
    { rewrite e0. unfold fdiv. destruct (f_of_Z rate) as [s'|s'| |s' m e pf] eqn:e1; [|discriminate fr|discriminate fr|reflexivity]. exfalso. unfold real in er. cbn in er. lra. }
    rewrite d0. assert (m0 : exists s', fmul (B754_zero (xorb s (Bsign (f_of_Z rate)))) (f_of_Z rate) = B754_zero s').
    { unfold fmul. destruct (f_of_Z rate) as [s'|s'| |s' m e pf] eqn:e1; [eexists; reflexivity|discriminate fr|discriminate fr|eexists; reflexivity]. }
    destruct m0 as [s' ->]. apply time_of_f64_some; [reflexivity|lia|]. unfold real. cbn [B2R]. lra.
  - assert (x1 : 1 <= IZR x) by (apply (IZR_le 1); lia).
    assert (q1 : B (-32) <= IZR x / IZR rate). { apply (Rmult_le_reg_r (IZR rate)); [lra|]. unfold Rdiv. rewrite Rmult_assoc, Rinv_l, Rmult_1_r by lra. assert (B (-32) * B 32 = 1) by (rewrite <- bpow_plus; reflexivity). pose proof (bpow_gt_0 radix2 (-32)). nra. }
    assert (q2 : IZR x / IZR rate <= B 32). { apply (Rmult_le_reg_r (IZR rate)); [lra|]. unfold Rdiv. rewrite Rmult_assoc, Rinv_l, Rmult_1_r by lra. nra. }
    assert (b1 : B (-1000) <= B (-32)) by (apply bpow_le; lia). assert (b2 : B 64 <= B 1022) by (apply bpow_le; lia). assert (b3 : B 32 * B 32 = B 64) by (rewrite <- bpow_plus; reflexivity).
    pose proof (bpow_gt_0 radix2 (-32)). pose proof (bpow_gt_0 radix2 32). assert (b4 : 2 <= B 32) by (apply (IZR_le 2); cbn; lia).
    assert (qa : Rabs (IZR x / IZR rate) = IZR x / IZR rate) by (apply Rabs_pos_eq; lra).
    destruct (fdiv_ok (f_of_Z x) (f_of_Z rate) fx) as [fd ed]; [lra|rewrite er, ex, qa; nra|]. rewrite er, ex in ed.
    destruct (rnd_rel (IZR x / IZR rate)) as (e1 & he1 & d1); [rewrite qa; lra|]. rewrite d1 in ed.
    pose proof u_pos. pose proof u_16. assert (he1' := Rabs_le_inv _ _ he1).
    assert (p0 : real (fdiv (f_of_Z x) (f_of_Z rate)) * IZR rate = IZR x * (1 + e1)) by (rewrite ed; field; lra).
    assert (p1 : / 2 <= IZR x * (1 + e1) <= 2 * B 32) by nra.
    assert (pa : Rabs (IZR x * (1 + e1)) = IZR x * (1 + e1)) by (apply Rabs_pos_eq; lra).
    assert (b5 : B (-1000) <= / 2) by (change (/ 2) with (B (-1)); apply bpow_le; lia).
    destruct (fmul_ok (fdiv (f_of_Z x) (f_of_Z rate)) (f_of_Z rate) fd fr) as [fm em]; [rewrite er, p0, pa; nra|]. rewrite er, p0 in em.
    destruct (rnd_rel (IZR x * (1 + e1))) as (e2 & he2 & d2); [rewrite pa; lra|]. rewrite d2 in em. assert (he2' := Rabs_le_inv _ _ he2).
    assert (xu : IZR x * u <= / 16). { assert (B 32 * u <= / 16). { rewrite u_val, <- bpow_plus. change (/ 16) with (B (-4)). apply bpow_le. lia. } nra. }
    assert (lo : IZR x - 1 <= real (fmul (fdiv (f_of_Z x) (f_of_Z rate)) (f_of_Z rate))). { rewrite em. assert (0 <= 1 + e1) by lra. assert (0 <= 1 + e2) by lra. assert (1 - u <= 1 + e1) by lra. assert (1 - u <= 1 + e2) by lra.
      assert ((1 - u) * (1 - u) <= (1 + e1) * (1 + e2)) by nra. assert (1 - 2 * u <= (1 - u) * (1 - u)) by nra. nra. }
    assert (hi : real (fmul (fdiv (f_of_Z x) (f_of_Z rate)) (f_of_Z rate)) < IZR x + 1). { rewrite em. assert ((1 + e1) * (1 + e2) <= (1 + u) * (1 + u)) by nra. assert ((1 + u) * (1 + u) <= 1 + 3 * u) by nra. nra. }
    set (v := real (fmul (fdiv (f_of_Z x) (f_of_Z rate)) (f_of_Z rate))) in *.
    destruct (Rle_lt_dec (IZR x) v) as [h|h].
    + exists x. split; [|lia]. apply time_of_f64_some; [exact fm|lia|]. fold v. lra.
    + exists (x - 1)%Z. split; [|lia]. apply time_of_f64_some; [exact fm|lia|]. fold v. rewrite minus_IZR. lra.
Qed.

(** rounding to integers *)
Lemma format_multiple a e : (-1022 <= e)%Z -> generic_format radix2 fexp64 a -> B e <= a -> exists m, a = IZR m * B (e - 52).
Proof.
  intros he hf ha. assert (hm : (e + 1 <= mag radix2 a)%Z). { apply mag_ge_bpow. replace (e + 1 - 1)%Z with e by lia. rewrite Rabs_pos_eq; [exact ha|]. pose proof (bpow_ge_0 radix2 e). lra. }
  assert (hc : (e - 52 <= cexp radix2 fexp64 a)%Z). { unfold cexp, FLT_exp. lia. }
  rewrite hf. unfold F2R. cbn [Fnum Fexp]. set (m := Ztrunc _). set (c := cexp radix2 fexp64 a) in *.
  exists (m * 2 ^ (c - (e - 52)))%Z. replace c with ((c - (e - 52)) + (e - 52))%Z at 1 by lia. rewrite bpow_plus, mult_IZR, Rmult_assoc. f_equal. f_equal.
  symmetry. apply (IZR_Zpower radix2). lia.
Qed.
Lemma IZR_pow2 k : (0 <= k)%Z -> IZR (2 ^ k) = B k.
Proof. apply (IZR_Zpower radix2). Qed.
Definition exception : R := / 2 - B (-54).
Lemma near_below a N : generic_format radix2 fexp64 a -> 0 <= a -> a <> exception -> (0 <= N < 2 ^ 32)%Z -> a < IZR N + / 2 ->
  exists F, generic_format radix2 fexp64 F /\ / 2 + a <= F /\ F < IZR N + 1.
Proof.
  intros hf ha hx hN h. destruct (Z.eq_dec N 0) as [->|N0].
  - exists (IZR (2 ^ 53 - 1) * B (-53)). split; [apply format_FLT_make; lia|].
    assert (e0 : IZR (2 ^ 53 - 1) * B (-53) = 1 - B (-53)). { rewrite minus_IZR, (IZR_pow2 53) by lia. rewrite Rmult_minus_distr_r, <- bpow_plus. cbn [bpow Z.add Z.opp]. change (B 0) with 1. cbn. lra. }
    rewrite e0. pose proof (bpow_gt_0 radix2 (-53)). split; [|lra].
    destruct (Rle_lt_dec (B (-2)) a) as [h1|h1].
    + destruct (format_multiple a (-2) ltac:(lia) hf h1) as (m & em). change (-2 - 52)%Z with (-54)%Z in em.
      assert (e2 : B (-53) = 2 * B (-54)) by (change (-53)%Z with (1 + -54)%Z; rewrite bpow_plus; reflexivity).
      assert (e3 : / 2 = IZR (2 ^ 53) * B (-54)) by (rewrite (IZR_pow2 53) by lia; rewrite <- bpow_plus; reflexivity).
      pose proof (bpow_gt_0 radix2 (-54)) as p. set (b := B (-54)) in *.
      assert (hm : (m < 2 ^ 53)%Z). { apply lt_IZR. apply (Rmult_lt_reg_r b); [exact p|]. rewrite <- e3, <- em. lra. }
      assert (hm' : (m <> 2 ^ 53 - 1)%Z). { intros ->. apply hx. unfold exception. fold b. rewrite em, e3, minus_IZR. ring. }
      assert (IZR m <= IZR (2 ^ 53 - 2)) by (apply IZR_le; lia). rewrite minus_IZR in H0. rewrite e2. assert (IZR m * b <= (IZR (2 ^ 53) - 2) * b) by (apply Rmult_le_compat_r; lra). rewrite <- em in H1. lra.
    + change (B (-2)) with (/ 4) in h1. assert (B (-53) <= B (-2)) by (apply bpow_le; lia). change (B (-2)) with (/ 4) in H0. lra.
  - set (e := Z.log2 N). destruct (Z.log2_spec N ltac:(lia)) as [l1 l2]. fold e in l1, l2. assert (he : (0 <= e < 32)%Z) by (split; [apply Z.log2_nonneg|apply Z.log2_lt_pow2; lia]).
    assert (L1 : B e <= IZR N) by (rewrite <- IZR_pow2 by lia; apply IZR_le; lia).
    destruct (Rle_lt_dec (B e) a) as [h1|h1].
    + destruct (format_multiple a e ltac:(lia) hf h1) as (m & em). set (b := B (e - 52)) in *. pose proof (bpow_gt_0 radix2 (e - 52)) as p. fold b in p.
      set (M := (2 ^ (51 - e))%Z). assert (hb : IZR M * b = / 2). { unfold M, b. rewrite IZR_pow2 by lia. rewrite <- bpow_plus. replace (51 - e + (e - 52))%Z with (-1)%Z by lia. reflexivity. }
      assert (hm : (m < (2 * N + 1) * M)%Z). { apply lt_IZR. apply (Rmult_lt_reg_r b); [exact p|]. rewrite <- em, mult_IZR, Rmult_assoc, hb, plus_IZR, mult_IZR. lra. }
      assert (Mpos : (0 < M)%Z) by (unfold M; apply Z.pow_pos_nonneg; lia).
      assert (hM : (4 * 2 ^ e * M = 2 ^ 53)%Z). { unfold M. change 4%Z with (2 ^ 2)%Z. rewrite <- !Z.pow_add_r by lia. f_equal. lia. }
      exists (IZR (2 * (N + 1) * M - 1) * b). split; [|split].
      * apply format_FLT_make; [|lia]. assert (N + 1 <= 2 * 2 ^ e)%Z by (rewrite Z.pow_succ_r in l2 by lia; lia). assert ((N + 1) * M <= 2 * 2 ^ e * M)%Z by (apply Z.mul_le_mono_nonneg_r; lia). nia.
      * rewrite em. replace (/ 2) with (IZR M * b) by exact hb. rewrite <- Rmult_plus_distr_r, <- plus_IZR. apply Rmult_le_compat_r; [lra|]. apply IZR_le. nia.
      * rewrite minus_IZR, mult_IZR, Rmult_minus_distr_r, mult_IZR. replace (2 * IZR (N + 1) * IZR M * b) with (2 * IZR (N + 1) * (IZR M * b)) by ring. rewrite hb, plus_IZR. lra.
    + exists (IZR (2 * N + 1) * B (-1)). change (B (-1)) with (/ 2). split; [change (/ 2) with (B (-1)); apply format_FLT_make; lia|]. rewrite plus_IZR, mult_IZR. lra.
Qed.
Lemma cheap_round_exact a : finite a -> 0 <= real a -> real a < IZR (2 ^ 32) - / 2 -> real a <> exception ->
  exists z, cheap_round64 a = Some z /\ IZR z - / 2 <= real a < IZR z + / 2.
Proof.
  intros hf h0 h1 hx. set (N := Zfloor (real a + / 2)). pose proof (Zfloor_lb (real a + / 2)) as l1. pose proof (Zfloor_ub (real a + / 2)) as l2. fold N in l1, l2.
  assert (hN : (0 <= N < 2 ^ 32)%Z). { split; [apply Zfloor_lub; lra|]. apply lt_IZR. lra. }
  exists N. split; [|lra]. destruct fhalf_real as [hh eh].
  assert (B32 : IZR (2 ^ 32) <= B 1022) by (rewrite IZR_pow2 by lia; apply bpow_le; lia).
  destruct (fadd_ok fhalf a hh hf) as (f1 & r1 & _); [rewrite eh; apply Rabs_le; lra|]. rewrite eh in r1. unfold cheap_round64. apply time_of_f64_some; [exact f1|exact hN|]. rewrite r1.
  destruct (near_below (real a) N (format_real a) h0 hx hN ltac:(lra)) as (F & g1 & g2 & g3). split.
  - rewrite <- (rnd_id (IZR N)) at 1 by (apply format_IZR; lia). apply rnd_le. lra.
  - apply Rle_lt_trans with F; [|exact g3]. rewrite <- (rnd_id F g1). apply rnd_le. exact g2.
Qed.
Lemma cheap_round_undefined a : finite a -> IZR (2 ^ 32) - / 2 <= real a <= B 1000 -> cheap_round64 a = None.
Proof.
  intros hf [h1 h2]. destruct fhalf_real as [hh eh]. assert (0 < IZR (2 ^ 32) - / 2) by (assert (1 <= IZR (2 ^ 32)) by (apply IZR_le; lia); lra).
  assert (B 1000 + 1 <= B 1022). { pose proof big_1000. assert (1 <= B 1000) by (change 1 with (B 0); apply bpow_le; lia). lra. }
  destruct (fadd_ok fhalf a hh hf) as (f1 & r1 & _); [rewrite eh; apply Rabs_le; lra|]. rewrite eh in r1. unfold cheap_round64. apply time_of_f64_none; [exact f1|]. rewrite r1.
  rewrite <- (rnd_id (IZR (2 ^ 32))) by (apply format_IZR; lia). apply rnd_le. lra.
Qed.
Lemma times_round_trip x : (0 <= x < 2 ^ 32)%Z -> cheap_round64 (time_to_sample64 x) = Some x.
Proof.
  intros h. destruct (f_of_Z_exact x ltac:(lia)) as [f e]. unfold time_to_sample64. assert (0 <= IZR x) by (apply IZR_le; lia). assert (IZR x <= IZR (2 ^ 32 - 1)) by (apply IZR_le; lia). rewrite minus_IZR in H0.
  destruct (cheap_round_exact (f_of_Z x)) as (z & e1 & e2 & e3); auto; rewrite ?e in *; try lra.
  - unfold exception. intros ex. assert (0 < B (-54) < / 2) by (split; [apply bpow_gt_0|change (/ 2) with (B (-1)); apply bpow_lt; lia]).
    assert (0 < x)%Z by (apply lt_IZR; lra). assert (x < 1)%Z by (apply lt_IZR; lra). lia.
  - rewrite e1. f_equal. assert (z - 1 < x)%Z by (apply lt_IZR; rewrite minus_IZR; lra). assert (x < z + 1)%Z by (apply lt_IZR; rewrite plus_IZR; lra). lia.
Qed.
Lemma sample_to_unit_range a : finite a -> -1 <= real a <= 1 -> finite (sample_to_unit64 a) /\ 0 <= real (sample_to_unit64 a) <= 1 /\ Rabs (real (sample_to_unit64 a) - (1 + real a) / 2) <= 2 * u.
Proof.
  intros hf h. destruct (f_of_Z_exact 1 ltac:(lia)) as [f1 e1]. destruct (f_of_Z_exact 2 ltac:(lia)) as [f2 e2]. unfold sample_to_unit64.
  assert (b1 : 2 <= B 1022) by (change 2 with (B 1); apply bpow_le; lia).
  destruct (fadd_ok (f_of_Z 1) a f1 hf) as (g & r & e & he & re); [rewrite e1; apply Rabs_le; lra|]. rewrite e1 in r, re. set (s := fadd (f_of_Z 1) a) in *.
  assert (hs : 0 <= real s <= 2). { rewrite r. split; [rewrite <- (rnd_id 0) by apply generic_format_0|rewrite <- (rnd_id 2) by (apply (format_IZR 2); lia)]; apply rnd_le; lra. }
  pose proof (Bdiv_correct 53 1024 _ _ mode_NE s (f_of_Z 2)) as p. fold (real (f_of_Z 2)) in p. fold (real s) in p. rewrite e2 in p. specialize (p ltac:(lra)). change (round_mode mode_NE) with ZnearestE in p. rewrite fexp64_eq in p.
  assert (d1 : 0 <= rnd (real s / 2) <= 1). { split; [rewrite <- (rnd_id 0) by apply generic_format_0|rewrite <- (rnd_id 1) by (apply (format_IZR 1); lia)]; apply rnd_le; lra. }
  rewrite Rlt_bool_true in p; [|rewrite Rabs_pos_eq by lra; apply Rle_lt_trans with 1; [lra|change 1 with (B 0); apply bpow_lt; lia]].
  destruct p as (p1 & p2 & _). unfold finite, real at 1 2 3, fdiv. rewrite p1, p2. splits; try lra; [exact g|].
  pose proof u_pos. apply Rle_trans with (Rabs (rnd (real s / 2) - real s / 2) + Rabs (real s / 2 - (1 + real a) / 2)).
  { replace (rnd (real s / 2) - (1 + real a) / 2) with ((rnd (real s / 2) - real s / 2) + (real s / 2 - (1 + real a) / 2)) by ring. apply Rabs_triang. }
  assert (q1 : Rabs (real s / 2 - (1 + real a) / 2) <= u).
  { rewrite re. replace ((1 + real a) * (1 + e) / 2 - (1 + real a) / 2) with ((1 + real a) / 2 * e) by field. replace u with (1 * u) by ring. apply Rabs_prod_le; [apply Rabs_le; lra|exact he]. }
  assert (q2 : Rabs (rnd (real s / 2) - real s / 2) <= u).
  { destruct (Rle_lt_dec (B (-1000)) (real s / 2)) as [h1|h1].
    - destruct (rnd_rel (real s / 2)) as (e3 & he3 & ->); [rewrite Rabs_pos_eq; lra|]. replace (real s / 2 * (1 + e3) - real s / 2) with (real s / 2 * e3) by ring. replace u with (1 * u) by ring. apply Rabs_prod_le; [apply Rabs_le; lra|exact he3].
    - assert (rnd (real s / 2) <= B (-1000)). { rewrite <- (rnd_id (B (-1000))) by (rewrite <- (Rmult_1_l (B (-1000))); apply (format_FLT_make 1); lia). apply rnd_le. lra. }
      assert (B (-1000) <= u) by (rewrite u_val; apply bpow_le; lia). apply Rabs_le. lra. }
  lra.
Qed.
(** the exception *)
Lemma exception_value : finite (fmake (2 ^ 53 - 1) (-54)) /\ real (fmake (2 ^ 53 - 1) (-54)) = exception.
Proof. destruct (fmake_exact (2 ^ 53 - 1) (-54) ltac:(lia) ltac:(lia)) as [h1 h2]. split; [exact h1|]. rewrite h2, minus_IZR, (IZR_pow2 53) by lia. rewrite Rmult_minus_distr_r, <- bpow_plus. unfold exception. cbn [Z.add Z.opp]. rewrite Rmult_1_l. reflexivity. Qed.
Lemma real_of_finite a b : finite a -> finite b -> real a = real b -> real a <> 0 -> a = b.
Proof. intros ha hb e h0. apply B2R_inj; auto; apply is_finite_strict_B2R; [exact h0|]. unfold real in *. congruence. Qed.
Lemma cheap_round_exception a : finite a -> real a = exception -> cheap_round64 a = Some 1%Z.
Proof.
  intros hf e. destruct exception_value as [f1 e1]. assert (exception <> 0). { unfold exception. assert (B (-54) < / 2) by (change (/ 2) with (B (-1)); apply bpow_lt; lia). lra. }
  rewrite (real_of_finite a _ hf f1); [vm_compute; reflexivity|congruence|congruence].
Qed.

(** integer conversions *)
Lemma hz_samples_exact rate x : (1 <= x)%Z -> (x * x <= rate)%Z -> exists p, hz_to_samples rate x = Some p /\ samples_to_hz rate p = Some x.
Proof.
  intros h1 h2. exists (rate / x)%Z. unfold hz_to_samples, samples_to_hz. replace (x =? 0)%Z with false by (symmetry; apply Z.eqb_neq; lia). split; [reflexivity|].
  assert (hp : (x <= rate / x)%Z) by (apply Z.div_le_lower_bound; lia). replace (rate / x =? 0)%Z with false by (symmetry; apply Z.eqb_neq; lia). f_equal.
  symmetry. apply (Z.div_unique rate (rate / x) x (rate mod x)); [left; pose proof (Z.mod_pos_bound rate x ltac:(lia)); lia|]. pose proof (Z.div_mod rate x ltac:(lia)). lia.
Qed.
Lemma hz_samples_at_least rate x : (1 <= x <= rate)%Z -> exists p z, hz_to_samples rate x = Some p /\ samples_to_hz rate p = Some z /\ (x <= z <= rate)%Z.
Proof.
  intros h. exists (rate / x)%Z, (rate / (rate / x))%Z. unfold hz_to_samples, samples_to_hz. replace (x =? 0)%Z with false by (symmetry; apply Z.eqb_neq; lia). split; [reflexivity|].
  assert (hp : (1 <= rate / x)%Z) by (apply Z.div_le_lower_bound; lia). replace (rate / x =? 0)%Z with false by (symmetry; apply Z.eqb_neq; lia). split; [reflexivity|].
  pose proof (Z.mul_div_le rate x ltac:(lia)). split; [apply Z.div_le_lower_bound; lia|apply Z.div_le_upper_bound; nia].
Qed.
Lemma hz_samples_lost rate x : (rate < 2 * x)%Z -> (x < rate)%Z -> exists p, hz_to_samples rate x = Some p /\ samples_to_hz rate p = Some rate.
Proof.
  intros h1 h2. exists 1%Z. unfold hz_to_samples, samples_to_hz. replace (x =? 0)%Z with false by (symmetry; apply Z.eqb_neq; lia).
  replace (rate / x)%Z with 1%Z by (apply (Z.div_unique rate x 1 (rate - x)); lia). split; [reflexivity|]. cbn [Z.eqb]. rewrite Z.div_1_r. reflexivity.
Qed.
Lemma duration_exact rate n d : (1 <= d)%Z -> (0 <= n)%Z -> (0 <= rate)%Z -> (rate / d * n < 2 ^ 32)%Z ->
  exists v, rate_duration rate n d = Some v /\ (d * v <= rate * n < d * v + d * n \/ n = 0 /\ v = 0)%Z /\ ((d | rate)%Z -> (d * v = rate * n)%Z).
Proof.
  intros h1 h2 h3 h4. unfold rate_duration. replace (d =? 0)%Z with false by (symmetry; apply Z.eqb_neq; lia). eexists. split; [reflexivity|].
  pose proof (Z.div_mod rate d ltac:(lia)) as e. pose proof (Z.mod_pos_bound rate d ltac:(lia)) as b. assert (0 <= rate / d)%Z by (apply Z.div_pos; lia). rewrite Z.mod_small by nia. split.
  - destruct (Z.eq_dec n 0) as [->|n0]; [right; split; [reflexivity|lia]|left]. set (q := (rate / d)%Z) in *. set (r := (rate mod d)%Z) in *. nia.
  - intros [k ->]. rewrite Z.div_mul by lia. lia.
Qed.
Lemma duration_second rate d : (1 <= d)%Z -> (1 <= rate < 2 ^ 32)%Z -> ~ (d | rate)%Z -> exists v, rate_duration rate d d = Some v /\ (v < rate)%Z.
Proof.
  intros h1 h2 h3. unfold rate_duration. replace (d =? 0)%Z with false by (symmetry; apply Z.eqb_neq; lia). eexists. split; [reflexivity|].
  pose proof (Z.div_mod rate d ltac:(lia)) as e. pose proof (Z.mod_pos_bound rate d ltac:(lia)) as b. assert (0 <= rate / d)%Z by (apply Z.div_pos; lia).
  assert (rate mod d <> 0)%Z by (intros z; apply h3, Z.mod_divide; lia). rewrite Z.mod_small; nia.
Qed.
Lemma radians x : rad_to_hz (hz_to_rad x) = PI * PI * x.
Proof. unfold rad_to_hz, hz_to_rad. field. Qed.
Lemma radians_wrong x : x <> 0 -> rad_to_hz (hz_to_rad x) <> x.
Proof.
  intros h. rewrite radians. intros e. assert (PI * PI = 1) by (apply (Rmult_eq_reg_r x); [lra|exact h]). pose proof PI2_1. nra.
Qed.

(** cancellation in sums *)
Lemma cancel_all : forallb (fun k => match sum64 [fmake 1 k; fmake (-1) k; fmake 1 0] 3 with Some (B754_zero _) => true | _ => false end) (map (fun i => 54 + Z.of_nat i)%Z (seq 0 900)) = true.
Proof. vm_compute. reflexivity. Qed.
Lemma cancel k : (54 <= k <= 953)%Z -> exists s, sum64 [fmake 1 k; fmake (-1) k; fmake 1 0] 3 = Some s /\ finite s /\ real s = 0.
Proof.
  intros h. pose proof (proj1 (forallb_forall _ _) cancel_all k) as p.
  assert (i : In k (map (fun i => 54 + Z.of_nat i)%Z (seq 0 900))). { apply in_map_iff. exists (Z.to_nat (k - 54)). split; [lia|]. apply in_seq. lia. }
  specialize (p i). cbv beta in p. destruct (sum64 [fmake 1 k; fmake (-1) k; fmake 1 0] 3) as [[s|s| |s m e pf]|]; try discriminate p. exists (B754_zero s). split; [reflexivity|]. split; reflexivity.
Qed.
Lemma cancel_sum k : (54 <= k <= 953)%Z -> Forall finite [fmake 1 k; fmake (-1) k; fmake 1 0] /\ real_sum [fmake 1 k; fmake (-1) k; fmake 1 0] = 1 /\ real_abs_sum [fmake 1 k; fmake (-1) k; fmake 1 0] = 2 * B k + 1.
Proof.
  intros h. destruct (fmake_exact 1 k) as [f1 e1]; [lia|lia|]. destruct (fmake_exact (-1) k) as [f2 e2]; [lia|lia|]. destruct (fmake_exact 1 0) as [f3 e3]; [lia|lia|]. change (B 0) with 1 in e3.
  split; [repeat constructor; assumption|]. cbn [real_sum real_abs_sum]. rewrite e1, e2, e3. split; [lra|]. pose proof (bpow_gt_0 radix2 k).
  rewrite !Rabs_mult. rewrite (Rabs_pos_eq (B k)) by lra. rewrite Rabs_R1. replace (Rabs (-1)) with 1 by (rewrite Rabs_left; lra). lra.
Qed.
