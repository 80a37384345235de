(** Proofs about lines and random numbers in double precision *)
From Coq Require Import ZArith Reals QArith Qreals List Lia Lra.
From Flocq Require Import Core BinarySingleNaN Plus_error Relative.
From Verif Require Import Base RandModel DblModel DblSpec DblProofs Dbl2Proofs DlineModel DlineSpec.
Import ListNotations.
Open Scope R_scope.

Lemma format_min a : generic_format radix2 fexp64 a -> exists m, a = IZR m * B (-1074).
Proof.
  intros hf. assert (hc : (-1074 <= cexp radix2 fexp64 a)%Z) by (unfold cexp, FLT_exp; lia).
  rewrite hf. unfold F2R. cbn [Fnum Fexp]. set (m := Ztrunc _). set (c := cexp radix2 fexp64 a) in *.
  exists (m * 2 ^ (c + 1074))%Z. replace c with ((c + 1074) + -1074)%Z at 1 by lia. rewrite bpow_plus, mult_IZR, Rmult_assoc. f_equal. f_equal. symmetry. apply IZR_pow2. lia.
Qed.
Lemma format_small_diff a b : generic_format radix2 fexp64 a -> generic_format radix2 fexp64 b -> Rabs (b - a) < B (-1021) -> generic_format radix2 fexp64 (b - a).
Proof.
  intros ha hb h. destruct (format_min a ha) as [m em]. destruct (format_min b hb) as [n en]. assert (e : b - a = IZR (n - m) * B (-1074)) by (rewrite em, en, minus_IZR; ring).
  rewrite e. apply format_FLT_make; [|lia]. apply lt_IZR. rewrite abs_IZR, IZR_pow2 by lia. apply (Rmult_lt_reg_r (B (-1074))); [apply bpow_gt_0|].
  rewrite <- bpow_plus. change (53 + -1074)%Z with (-1021)%Z. rewrite <- (Rabs_pos_eq (B (-1074))) by apply bpow_ge_0. rewrite <- Rabs_mult, <- e. exact h.
Qed.
Lemma rnd_rel_normal x : B (-1022) <= Rabs x -> exists e, Rabs e <= u /\ rnd x = x * (1 + e).
Proof.
  intros h. assert (rx : Rabs (rnd x - x) <= u * Rabs x).
  { eapply Rle_trans; [apply (relative_error_N_FLT radix2 (-1074) 53 ltac:(lia) (fun z => negb (Z.even z)))|].
    - eapply Rle_trans; [|exact h]. apply bpow_le. lia.
    - right. f_equal. rewrite u_val. change (/ 2) with (B (-1)). rewrite <- bpow_plus. reflexivity. }
  assert (x0 : x <> 0). { intros ->. rewrite Rabs_R0 in h. pose proof (bpow_gt_0 radix2 (-1022)). lra. }
  exists ((rnd x - x) / x). split; [|field; exact x0]. unfold Rdiv. rewrite Rabs_mult, Rabs_inv.
  assert (0 < Rabs x) by (apply Rabs_pos_lt; exact x0). apply (Rmult_le_reg_r (Rabs x)); [assumption|]. rewrite Rmult_assoc, Rinv_l by lra. lra.
Qed.
Lemma format_bpow e : (-1074 <= e)%Z -> generic_format radix2 fexp64 (B e).
Proof. intros h. rewrite <- (Rmult_1_l (B e)). apply (format_FLT_make 1); lia. Qed.
Lemma rnd_pos x : 0 <= x -> 0 <= rnd x.
Proof. intros h. rewrite <- (rnd_id 0) by apply generic_format_0. now apply rnd_le. Qed.
Lemma rnd_opp x : rnd (- x) = - rnd x.
Proof. apply round_NE_opp. Qed.
(** any rounding error: relative, or tiny *)
Lemma rnd_any x : Rabs (rnd x - x) <= u * Rabs x + B (-1022).
Proof.
  pose proof u_pos. destruct (Rle_lt_dec (B (-1022)) (Rabs x)) as [h|h].
  - destruct (rnd_rel_normal x h) as (e & he & ->). replace (x * (1 + e) - x) with (x * e) by ring. rewrite Rabs_mult. pose proof (Rabs_pos x). pose proof (bpow_gt_0 radix2 (-1022)). nra.
  - assert (hp : 0 <= u * Rabs x) by (pose proof (Rabs_pos x); nra).
    assert (hx := Rabs_lt_inv _ _ h). pose proof (format_bpow (-1022) ltac:(lia)) as fb.
    destruct (Rle_lt_dec 0 x) as [p|p].
    + assert (0 <= rnd x <= B (-1022)). { split; [now apply rnd_pos|]. rewrite <- (rnd_id _ fb). apply rnd_le. lra. } apply Rle_trans with (B (-1022)); [|lra]. apply Rabs_le. lra.
    + assert (- B (-1022) <= rnd x <= 0). { split; [rewrite <- (rnd_id _ fb), <- rnd_opp; apply rnd_le; lra|]. rewrite <- (rnd_id 0) by apply generic_format_0. apply rnd_le. lra. } apply Rle_trans with (B (-1022)); [|lra]. apply Rabs_le. lra.
Qed.

(** ** Linear interpolation *)
Definition L (a b t : R) : R := rnd (a + rnd (t * rnd (b - a))).
Lemma L_opp a b t : L (- a) (- b) t = - L a b t.
Proof. unfold L. replace (- b - - a) with (- (b - a)) by ring. rewrite rnd_opp. replace (t * - rnd (b - a)) with (- (t * rnd (b - a))) by ring. rewrite rnd_opp, <- Ropp_plus_distr. apply rnd_opp. Qed.
Definition tmax : R := 1 - B (-33).
Lemma p_range a b t : generic_format radix2 fexp64 a -> generic_format radix2 fexp64 b -> 0 <= t <= tmax -> a <= b -> 0 <= rnd (t * rnd (b - a)) <= b - a.
Proof.
  intros ha hb ht hab. pose proof u_pos. pose proof (bpow_gt_0 radix2 (-33)). assert (d0 : 0 <= rnd (b - a)) by (apply rnd_pos; lra). split; [apply rnd_pos; nra|].
  assert (t1 : t <= 1) by (unfold tmax in ht; lra).
  destruct (Rlt_le_dec (b - a) (B (-1021))) as [h|h].
  - pose proof (format_small_diff a b ha hb ltac:(rewrite Rabs_pos_eq; lra)) as f. rewrite (rnd_id (b - a) f). rewrite <- (rnd_id (b - a) f) at 2. apply rnd_le. nra.
  - assert (B (-1022) <= B (-1021)) by (apply bpow_le; lia). destruct (rnd_rel_normal (b - a)) as (e & he & ed); [rewrite Rabs_pos_eq; lra|]. apply Rabs_le_inv in he.
    assert (u <= B (-40)) by (rewrite u_val; apply bpow_le; lia). assert (B (-33) = 128 * B (-40)) by (change 128 with (B 7); rewrite <- bpow_plus; reflexivity). pose proof (bpow_gt_0 radix2 (-40)).
    assert (B (-40) <= / 1024) by (change (/ 1024) with (B (-10)); apply bpow_le; lia).
    assert (q : t * rnd (b - a) <= tmax * ((b - a) * (1 + u))). { rewrite ed in *. apply Rmult_le_compat; try lra. apply Rmult_le_compat_l; lra. }
    assert (0 <= t * rnd (b - a)) by nra.
    destruct (Rlt_le_dec (t * rnd (b - a)) (B (-1022))) as [g|g].
    + apply Rle_trans with (B (-1022)); [|lra]. rewrite <- (rnd_id (B (-1022)) (format_bpow (-1022) ltac:(lia))). apply rnd_le. left. exact g.
    + destruct (rnd_rel_normal (t * rnd (b - a))) as (e2 & he2 & ep); [rewrite Rabs_pos_eq; lra|]. apply Rabs_le_inv in he2. rewrite ep.
      apply Rle_trans with (tmax * ((b - a) * (1 + u)) * (1 + u)). { apply Rmult_le_compat; lra. }
      replace (tmax * ((b - a) * (1 + u)) * (1 + u)) with ((b - a) * (tmax * ((1 + u) * (1 + u)))) by ring. rewrite <- (Rmult_1_r (b - a)) at 2. apply Rmult_le_compat_l; [lra|].
      unfold tmax. assert ((1 + u) * (1 + u) <= 1 + 3 * u) by nra. nra.
Qed.
Lemma L_range a b t : generic_format radix2 fexp64 a -> generic_format radix2 fexp64 b -> 0 <= t <= tmax -> a <= b -> a <= L a b t <= b.
Proof.
  intros ha hb ht hab. pose proof (p_range a b t ha hb ht hab). unfold L. split.
  - rewrite <- (rnd_id a ha) at 1. apply rnd_le. lra.
  - rewrite <- (rnd_id b hb) at 2. apply rnd_le. lra.
Qed.
Lemma L_between a b t : generic_format radix2 fexp64 a -> generic_format radix2 fexp64 b -> 0 <= t <= tmax -> between a b (L a b t).
Proof.
  intros ha hb ht. unfold between. destruct (Rle_lt_dec a b) as [h|h].
  - rewrite Rmin_left, Rmax_right by lra. now apply L_range.
  - rewrite Rmin_right, Rmax_left by lra. pose proof (L_range (- a) (- b) t (generic_format_opp _ _ _ ha) (generic_format_opp _ _ _ hb) ht ltac:(lra)) as q. rewrite L_opp in q. lra.
Qed.
Lemma L_start a b : generic_format radix2 fexp64 a -> L a b 0 = a.
Proof. intros ha. unfold L. rewrite Rmult_0_l, (rnd_id 0), Rplus_0_r by apply generic_format_0. now apply rnd_id. Qed.
Lemma L_error a b t s M : generic_format radix2 fexp64 a -> generic_format radix2 fexp64 b -> Rabs a <= M -> Rabs b <= M -> 0 <= t <= tmax -> 0 <= s <= 1 -> Rabs (t - s) <= u ->
  Rabs (L a b t - (a + (b - a) * s)) <= 10 * u * M + B (-1019).
Proof.
  intros ha hb hM hM' ht hs hts. pose proof u_pos. pose proof u_16. pose proof (bpow_gt_0 radix2 (-1022)). assert (t1 : t <= 1) by (unfold tmax in ht; pose proof (bpow_gt_0 radix2 (-33)); lra).
  assert (e8 : B (-1019) = 8 * B (-1022)) by (change 8 with (B 3); rewrite <- bpow_plus; reflexivity). rewrite e8. set (z := B (-1022)) in *.
  assert (M0 : 0 <= M) by (pose proof (Rabs_pos a); lra).
  assert (bd : Rabs (b - a) <= 2 * M) by (eapply Rle_trans; [apply Rabs_triang|]; rewrite Rabs_Ropp; lra).
  pose proof (rnd_any (b - a)) as r1. set (d := rnd (b - a)) in *. pose proof (rnd_any (t * d)) as r2. set (p := rnd (t * d)) in *. pose proof (rnd_any (a + p)) as r3. fold z in r1, r2, r3.
  assert (bd' : Rabs (d - (b - a)) <= 2 * M * u + z) by nra.
  assert (b1 : Rabs d <= 2 * M + 2 * M * u + z). { replace d with ((d - (b - a)) + (b - a)) by ring. eapply Rle_trans; [apply Rabs_triang|]. lra. }
  assert (tabs : Rabs t <= 1) by (apply Rabs_le; lra).
  assert (b2 : Rabs (t * d) <= Rabs d). { rewrite Rabs_mult. pose proof (Rabs_pos d). nra. }
  assert (b3 : Rabs (t * d - (b - a) * s) <= 4 * M * u + z).
  { replace (t * d - (b - a) * s) with (t * (d - (b - a)) + (b - a) * (t - s)) by ring. eapply Rle_trans; [apply Rabs_triang|].
    assert (Rabs (t * (d - (b - a))) <= 1 * (2 * M * u + z)) by (apply Rabs_prod_le; auto). assert (Rabs ((b - a) * (t - s)) <= 2 * M * u) by (apply Rabs_prod_le; auto). lra. }
  assert (Mu : 0 <= M * u) by nra. assert (Muu : 0 <= M * u * u <= M * u * / 16) by nra. assert (zu : 0 <= z * u <= z * / 16) by nra.
  assert (b4 : Rabs (p - t * d) <= 2 * M * u + 2 * (M * u * u) + z * u + z) by nra.
  assert (b5 : Rabs (p - (b - a) * s) <= 6 * M * u + 2 * (M * u * u) + 3 * z).
  { replace (p - (b - a) * s) with ((p - t * d) + (t * d - (b - a) * s)) by ring. eapply Rle_trans; [apply Rabs_triang|]. lra. }
  assert (mid : Rabs (a + (b - a) * s) <= M). { replace (a + (b - a) * s) with (a * (1 - s) + b * s) by ring. eapply Rle_trans; [apply Rabs_triang|].
    assert (Rabs (a * (1 - s)) <= M * (1 - s)). { rewrite Rabs_mult, (Rabs_pos_eq (1 - s)) by lra. apply Rmult_le_compat_r; lra. }
    assert (Rabs (b * s) <= M * s). { rewrite Rabs_mult, (Rabs_pos_eq s) by lra. apply Rmult_le_compat_r; lra. } lra. }
  assert (b6 : Rabs (a + p) <= M + (6 * M * u + 2 * (M * u * u) + 3 * z)). { replace (a + p) with ((a + (b - a) * s) + (p - (b - a) * s)) by ring. eapply Rle_trans; [apply Rabs_triang|]. lra. }
  unfold L. fold d p. replace (rnd (a + p) - (a + (b - a) * s)) with ((rnd (a + p) - (a + p)) + (p - (b - a) * s)) by ring. eapply Rle_trans; [apply Rabs_triang|].
  assert (u * Rabs (a + p) <= M * u + 6 * (M * u * u) + 2 * (M * u * u) * u + 3 * (z * u)) by nra.
  assert (M * u * u * u <= M * u * u) by nra. lra.
Qed.

Lemma rnd_no_overflow x : Rabs x <= B 1022 -> Rabs (rnd x) < B 1024.
Proof.
  intros h. apply Rle_lt_trans with (B 1022); [|apply bpow_lt; lia]. pose proof (format_bpow 1022 ltac:(lia)) as f. apply Rabs_le_inv in h. apply Rabs_le. split.
  - rewrite <- (rnd_id _ f), <- rnd_opp. apply rnd_le. lra.
  - rewrite <- (rnd_id _ f). apply rnd_le. lra.
Qed.
Lemma fmul_fin a b : finite a -> finite b -> Rabs (real a * real b) <= B 1022 -> finite (fmul a b) /\ real (fmul a b) = rnd (real a * real b).
Proof.
  intros ha hb h. pose proof (Bmult_correct 53 1024 _ _ mode_NE a b) as p. change (round_mode mode_NE) with ZnearestE in p. rewrite fexp64_eq in p. fold (real a) (real b) in p.
  rewrite Rlt_bool_true in p by now apply rnd_no_overflow. destruct p as (p1 & p2 & _). split; [unfold finite, fmul; rewrite p2, ha, hb; reflexivity|exact p1].
Qed.
Lemma fdiv_fin a b : finite a -> real b <> 0 -> Rabs (real a / real b) <= B 1022 -> finite (fdiv a b) /\ real (fdiv a b) = rnd (real a / real b).
Proof.
  intros ha hb h. pose proof (Bdiv_correct 53 1024 _ _ mode_NE a b hb) as p. change (round_mode mode_NE) with ZnearestE in p. rewrite fexp64_eq in p. fold (real a) (real b) in p.
  rewrite Rlt_bool_true in p by now apply rnd_no_overflow. destruct p as (p1 & p2 & _). split; [unfold finite, fdiv; rewrite p2; exact ha|exact p1].
Qed.
Lemma tmax_1 : 0 < tmax < 1.
Proof. unfold tmax. pose proof (bpow_gt_0 radix2 (-33)). assert (B (-33) < B 0) by (apply bpow_lt; lia). change (B 0) with 1 in H0. lra. Qed.
Lemma lerp_real a b t : finite a -> finite b -> finite t -> Rabs (real a) <= B 1000 -> Rabs (real b) <= B 1000 -> 0 <= real t <= tmax ->
  finite (lerp64 a b t) /\ real (lerp64 a b t) = L (real a) (real b) (real t).
Proof.
  intros fa fb ft ha hb ht. pose proof big_1000. pose proof (bpow_gt_0 radix2 1000). pose proof tmax_1. apply Rabs_le_inv in ha, hb.
  destruct (fsub_ok b a fb fa) as (f1 & r1 & _); [apply Rabs_le; lra|].
  assert (d1 : Rabs (real (fsub b a)) <= 2 * B 1000).
  { rewrite r1. assert (e2 : 2 * B 1000 = B 1001) by (change 1001%Z with (1 + 1000)%Z; rewrite bpow_plus; reflexivity). pose proof (format_bpow 1001 ltac:(lia)) as f. rewrite e2. apply Rabs_le. split.
    - rewrite <- (rnd_id _ f), <- rnd_opp. apply rnd_le. lra.
    - rewrite <- (rnd_id _ f). apply rnd_le. lra. }
  assert (m1 : Rabs (real t * real (fsub b a)) <= 2 * B 1000). { rewrite Rabs_mult, (Rabs_pos_eq (real t)) by lra. pose proof (Rabs_pos (real (fsub b a))). nra. }
  destruct (fmul_fin t (fsub b a) ft f1) as [f2 r2]; [lra|].
  assert (p1 : Rabs (real (fmul t (fsub b a))) <= 2 * B 1000).
  { rewrite r2. assert (e2 : 2 * B 1000 = B 1001) by (change 1001%Z with (1 + 1000)%Z; rewrite bpow_plus; reflexivity). pose proof (format_bpow 1001 ltac:(lia)) as f. rewrite e2 in *. apply Rabs_le_inv in m1. apply Rabs_le. split.
    - rewrite <- (rnd_id _ f), <- rnd_opp. apply rnd_le. lra.
    - rewrite <- (rnd_id _ f). apply rnd_le. lra. }
  apply Rabs_le_inv in p1. destruct (fadd_ok a (fmul t (fsub b a)) fa f2) as (f3 & r3 & _); [apply Rabs_le; lra|].
  split; [exact f3|]. unfold lerp64, L. rewrite r3, r2, r1. reflexivity.
Qed.
Lemma ratio_ok k size (s : f64) : (0 <= k < size)%Z -> (size < 2 ^ 32)%Z -> finite s -> real s = IZR size ->
  finite (fdiv (f_of_Z k) s) /\ 0 <= real (fdiv (f_of_Z k) s) <= tmax /\ Rabs (real (fdiv (f_of_Z k) s) - IZR k / IZR size) <= u /\ (k = 0%Z -> real (fdiv (f_of_Z k) s) = 0).
Proof.
  intros hk hs fs es. destruct (f_of_Z_exact k ltac:(lia)) as [fk ek]. assert (s1 : 1 <= IZR size) by (apply (IZR_le 1); lia). assert (s2 : IZR size <= B 32) by (rewrite <- two32; apply IZR_le; lia).
  assert (k0 : 0 <= IZR k) by (apply IZR_le; lia). assert (k1 : IZR k <= IZR size - 1) by (rewrite <- minus_IZR; apply IZR_le; lia). pose proof u_pos.
  assert (inv : IZR size * / IZR size = 1) by (apply Rinv_r; lra). assert (i0 : 0 < / IZR size) by (apply Rinv_0_lt_compat; lra).
  assert (q : 0 <= IZR k / IZR size <= tmax).
  { split; [unfold Rdiv; nra|]. assert (i1 : B (-32) <= / IZR size). { change (-32)%Z with (- (32))%Z. rewrite bpow_opp. apply Rinv_le; lra. }
    assert (B (-33) <= B (-32)) by (apply bpow_le; lia). unfold tmax, Rdiv. nra. }
  pose proof tmax_1. destruct (fdiv_fin (f_of_Z k) s fk) as [f1 r1]; [lra|rewrite ek, es, Rabs_pos_eq by lra; apply Rle_trans with (B 0); [change (B 0) with 1; lra|apply bpow_le; lia]|].
  rewrite ek, es in r1. split; [exact f1|]. rewrite r1.
  assert (ft : generic_format radix2 fexp64 tmax). { unfold tmax. replace (1 - B (-33)) with (IZR (2 ^ 33 - 1) * B (-33)); [apply format_FLT_make; lia|]. rewrite minus_IZR, (IZR_pow2 33) by lia. rewrite Rmult_minus_distr_r, <- bpow_plus. change (B (33 + -33)) with 1. lra. }
  split; [|split].
  - split; [apply rnd_pos; lra|]. rewrite <- (rnd_id _ ft). apply rnd_le. lra.
  - destruct (Z.eq_dec k 0) as [->|k00].
    + unfold Rdiv. rewrite Rmult_0_l, (rnd_id 0), Rminus_0_r, Rabs_R0 by apply generic_format_0. lra.
    + assert (1 <= IZR k) by (apply (IZR_le 1); lia). assert (B (-32) <= IZR k / IZR size). { change (-32)%Z with (- (32))%Z. rewrite bpow_opp. apply Rle_trans with (/ IZR size); [apply Rinv_le; lra|]. unfold Rdiv. nra. }
      assert (B (-1000) <= B (-32)) by (apply bpow_le; lia). destruct (rnd_rel (IZR k / IZR size)) as (e & he & ->); [rewrite Rabs_pos_eq; lra|].
      replace (IZR k / IZR size * (1 + e) - IZR k / IZR size) with (IZR k / IZR size * e) by ring. replace u with (1 * u) by ring. apply Rabs_prod_le; [apply Rabs_le; lra|exact he].
  - intros ->. unfold Rdiv. rewrite Rmult_0_l. apply rnd_id, generic_format_0.
Qed.
Lemma fsub_ints a b x y : finite a -> finite b -> real a = IZR x -> real b = IZR y -> (0 <= x < 2 ^ 32)%Z -> (0 <= y < 2 ^ 32)%Z -> finite (fsub a b) /\ real (fsub a b) = IZR (x - y).
Proof.
  intros fa fb ea eb hx hy. assert (h : Rabs (IZR (x - y)) <= B 1022). { rewrite <- abs_IZR. apply Rle_trans with (B 53); [apply (IZR_le _ (2 ^ 53)); lia|apply bpow_le; lia]. }
  destruct (fsub_ok a b fa fb) as (f & r & _); rewrite ea, eb, <- minus_IZR in *; [exact h|]. split; [exact f|]. rewrite r. apply rnd_id, format_IZR. lia.
Qed.
Lemma size_of_f64_int a z : finite a -> real a = IZR z -> (0 <= z < 2 ^ 64)%Z -> size_of_f64 a = Some z.
Proof.
  intros f e h. unfold size_of_f64. rewrite f, trunc_real, e, Ztrunc_IZR. cbv zeta. replace (_ && _)%bool with true; [reflexivity|]. symmetry. apply andb_true_intro. split; [apply Z.leb_le|apply Z.ltb_lt]; lia.
Qed.
Lemma line_generate_ok x0 x1 start fin p q out o M : (0 <= x0 <= start)%Z -> (start <= fin <= x1)%Z -> (x1 < 2 ^ 32)%Z ->
  finite (dx p) -> finite (dx q) -> finite (dy p) -> finite (dy q) -> real (dx p) = IZR x0 -> real (dx q) = IZR x1 ->
  Rabs (real (dy p)) <= M -> Rabs (real (dy q)) <= M -> M <= B 1000 -> (o + Z.to_nat (fin - start) <= length out)%nat ->
  exists out', line_generate64 start fin p q out o = Some out' /\ length out' = length out /\
    (forall i, (i < o \/ o + Z.to_nat (fin - start) <= i)%nat -> nth_error out' i = nth_error out i) /\
    forall i, (i < Z.to_nat (fin - start))%nat -> exists v, nth_error out' (o + i) = Some v /\ finite v /\ between (real (dy p)) (real (dy q)) (real v) /\
      Rabs (real v - line_at x0 x1 (real (dy p)) (real (dy q)) (start + Z.of_nat i)) <= 10 * u * M + B (-1019) /\ (start + Z.of_nat i = x0 -> real v = real (dy p))%Z /\
      v = lerp64 (dy p) (dy q) (fdiv (f_of_Z (start + Z.of_nat i - x0)) (fsub (dx q) (dx p))).
Proof.
  intros h1 h2 h3 fpx fqx fpy fqy epx eqx bp bq hM hout. unfold line_generate64.
  destruct (fsub_ints (dx q) (dx p) x1 x0 fqx fpx eqx epx ltac:(lia) ltac:(lia)) as [fs es].
  destruct (f_of_Z_exact start ltac:(lia)) as [fst_ est]. destruct (fsub_ints (f_of_Z start) (dx p) start x0 fst_ fpx est epx ltac:(lia) ltac:(lia)) as [fo eo].
  rewrite (size_of_f64_int _ _ fo eo) by lia. cbn [bind]. unfold need. replace (start <=? fin)%Z with true by (symmetry; apply Z.leb_le; lia). cbn [bind].
  set (n := Z.to_nat (fin - start)) in *. set (s := fsub (dx q) (dx p)) in *.
  destruct (for_inv (fun k out' => length out' = length out /\ (forall i, (i < o \/ o + k <= i)%nat -> nth_error out' i = nth_error out i) /\
      forall i, (i < k)%nat -> nth_error out' (o + i) = Some (lerp64 (dy p) (dy q) (fdiv (f_of_Z (Z.of_nat i + (start - x0))) s)))
    (fun i out => let t := fdiv (f_of_Z (Z.of_nat i + (start - x0))) s in aset out (o + i) (lerp64 (dy p) (dy q) t)) 0 n out) as (out' & e & g1 & g2 & g3).
  - lia.
  - splits; auto. intros i hi. lia.
  - intros i out' hi (g1 & g2 & g3). cbv zeta. destruct (aset_some out' (o + i) (lerp64 (dy p) (dy q) (fdiv (f_of_Z (Z.of_nat i + (start - x0))) s)) ltac:(lia)) as (out2 & e2).
    exists out2. split; [exact e2|]. rewrite (aset_length _ _ _ _ e2). splits; auto.
    + intros j hj. rewrite (aset_get _ _ _ _ j e2). replace (j =? o + i)%nat with false by (symmetry; apply Nat.eqb_neq; lia). apply g2. lia.
    + intros j hj. rewrite (aset_get _ _ _ _ (o + j) e2). destruct (Nat.eqb_spec (o + j) (o + i)) as [ej|ej]; [replace j with i by lia; reflexivity|]. apply g3. lia.
  - exists out'. splits; auto. intros i hi. eexists. split; [apply g3, hi|].
    assert (hx : (x0 < x1)%Z) by lia. set (k := (Z.of_nat i + (start - x0))%Z). assert (hk : (0 <= k < x1 - x0)%Z) by (unfold k, n in *; lia).
    destruct (ratio_ok k (x1 - x0) s hk ltac:(lia) fs es) as (ft & bt & et & zt).
    destruct (lerp_real (dy p) (dy q) (fdiv (f_of_Z k) s) fpy fqy ft) as [f r]; [lra|lra|exact bt|]. split; [exact f|]. rewrite r. split; [apply L_between; auto using format_real|]. split.
    + unfold line_at. replace (start + Z.of_nat i - x0)%Z with k by (unfold k; lia). apply L_error; auto using format_real.
      assert (s1 : 1 <= IZR (x1 - x0)) by (apply (IZR_le 1); lia). assert (0 <= IZR k) by (apply IZR_le; lia). assert (IZR k <= IZR (x1 - x0)) by (apply IZR_le; lia).
      assert (inv : IZR (x1 - x0) * / IZR (x1 - x0) = 1) by (apply Rinv_r; lra). assert (0 < / IZR (x1 - x0)) by (apply Rinv_0_lt_compat; lra). unfold Rdiv. nra.
    + split; [|f_equal; f_equal; f_equal; unfold k; lia]. intros ez. rewrite zt by (unfold k; lia). apply L_start, format_real.
Qed.
(** the value at a position does not depend on the window *)
Lemma line_windows x0 x1 p q s1 f1 out1 o1 r1 s2 f2 out2 o2 r2 x : (0 <= x0)%Z -> (x0 <= s1 <= f1)%Z -> (x0 <= s2 <= f2)%Z -> (f1 <= x1 < 2 ^ 32)%Z -> (f2 <= x1)%Z ->
  finite (dx p) -> finite (dx q) -> finite (dy p) -> finite (dy q) -> real (dx p) = IZR x0 -> real (dx q) = IZR x1 -> Rabs (real (dy p)) <= B 1000 -> Rabs (real (dy q)) <= B 1000 ->
  line_generate64 s1 f1 p q out1 o1 = Some r1 -> line_generate64 s2 f2 p q out2 o2 = Some r2 -> (o1 + Z.to_nat (f1 - s1) <= length out1)%nat -> (o2 + Z.to_nat (f2 - s2) <= length out2)%nat ->
  (s1 <= x < f1)%Z -> (s2 <= x < f2)%Z -> nth_error r1 (o1 + Z.to_nat (x - s1)) = nth_error r2 (o2 + Z.to_nat (x - s2)).
Proof.
  intros h0 h1 h2 h3 h4 fpx fqx fpy fqy epx eqx bp bq e1 e2 l1 l2 i1 i2.
  destruct (line_generate_ok x0 x1 s1 f1 p q out1 o1 (B 1000)) as (a1 & ea1 & _ & _ & g1); try lia; auto; try lra. destruct (line_generate_ok x0 x1 s2 f2 p q out2 o2 (B 1000)) as (a2 & ea2 & _ & _ & g2); try lia; auto; try lra.
  rewrite e1 in ea1. rewrite e2 in ea2. injection ea1 as <-. injection ea2 as <-.
  destruct (g1 (Z.to_nat (x - s1)) ltac:(lia)) as (v1 & n1 & _ & _ & _ & _ & v1e). destruct (g2 (Z.to_nat (x - s2)) ltac:(lia)) as (v2 & n2 & _ & _ & _ & _ & v2e).
  rewrite n1, n2, v1e, v2e. replace (s1 + Z.of_nat (Z.to_nat (x - s1)))%Z with x by lia. replace (s2 + Z.of_nat (Z.to_nat (x - s2)))%Z with x by lia. reflexivity.
Qed.

(** ** Random numbers *)
Lemma u64_plus_word s : (0 <= fst (random_u64_plus s) < 2 ^ 64)%Z.
Proof. destruct s as [[[s0 s1] s2] s3]. cbn [random_u64_plus fst]. unfold u64. apply Z.mod_pos_bound. reflexivity. Qed.
Lemma u64_word s : (0 <= fst (random_u64 s) < 2 ^ 64)%Z.
Proof. destruct s as [[[s0 s1] s2] s3]. cbn [random_u64 fst]. unfold u64. apply Z.mod_pos_bound. reflexivity. Qed.
Lemma shift_range a : (0 <= a < 2 ^ 64)%Z -> (0 <= Z.shiftr a 11 < 2 ^ 53)%Z.
Proof. intros h. rewrite Z.shiftr_div_pow2 by lia. split; [apply Z.div_pos; lia|]. apply Z.div_lt_upper_bound; lia. Qed.
Lemma from_u64_real a : (0 <= a < 2 ^ 64)%Z -> finite (from_u64_64 a) /\ real (from_u64_64 a) = IZR (Z.shiftr a 11) * B (-53).
Proof.
  intros h. pose proof (shift_range a h) as hs. destruct (f_of_Z_exact (Z.shiftr a 11) ltac:(lia)) as [f1 e1]. destruct (fmake_exact 1 (-53) ltac:(lia) ltac:(lia)) as [f2 e2]. rewrite Rmult_1_l in e2.
  assert (fm : generic_format radix2 fexp64 (IZR (Z.shiftr a 11) * B (-53))) by (apply format_FLT_make; lia).
  assert (b : Rabs (IZR (Z.shiftr a 11) * B (-53)) <= B 1022).
  { rewrite Rabs_pos_eq by (apply Rmult_le_pos; [apply IZR_le; lia|apply bpow_ge_0]). apply Rle_trans with (B 53 * B (-53)); [apply Rmult_le_compat_r; [apply bpow_ge_0|]; rewrite <- IZR_pow2 by lia; apply IZR_le; lia|].
    rewrite <- bpow_plus. apply bpow_le. lia. }
  destruct (fmul_fin _ _ f1 f2) as [f3 r3]; rewrite e1, e2 in *; [exact b|]. split; [exact f3|]. unfold from_u64_64. rewrite r3. apply rnd_id. exact fm.
Qed.
(** the largest factor does not reach one: multiplied with a number above the smallest normal number it does not reach the number, after rounding *)
Lemma product_below r k : generic_format radix2 fexp64 r -> B (-1022) < r -> (0 <= k < 2 ^ 53)%Z -> rnd (r * (IZR k * B (-53))) < r.
Proof.
  intros fr hr hk. set (x := r * (IZR k * B (-53))). pose proof (bpow_gt_0 radix2 (-1022)). pose proof (bpow_gt_0 radix2 (-53)).
  assert (hx : x <= r - r * B (-53)). { unfold x. assert (IZR k <= IZR (2 ^ 53 - 1)) by (apply IZR_le; lia). rewrite minus_IZR, IZR_pow2 in H1 by lia. assert (e : B 53 * B (-53) = 1) by (rewrite <- bpow_plus; reflexivity).
    assert (IZR k * B (-53) <= 1 - B (-53)) by nra. nra. }
  destruct (mag radix2 r) as [e0 he0]. specialize (he0 ltac:(lra)). rewrite Rabs_pos_eq in he0 by lra. set (e := (e0 - 1)%Z) in *. assert (e1 : (-1022 <= e)%Z). { assert (-1022 < e0)%Z by (apply (lt_bpow radix2); lra). unfold e. lia. }
  destruct (format_multiple r e e1 fr (proj1 he0)) as [m em].
  assert (b1 : B e * B (-53) = B (e - 53)) by (rewrite <- bpow_plus; f_equal; lia). assert (b2 : B (e - 52) = 2 * B (e - 53)) by (replace (e - 52)%Z with (1 + (e - 53))%Z by lia; rewrite bpow_plus; reflexivity).
  pose proof (bpow_gt_0 radix2 (e - 53)) as b3.
  destruct (Z.eq_dec m (2 ^ 52)) as [m0|m0].
  - (* a power of two: the product is exact *)
    assert (er : r = B e) by (rewrite em, m0, IZR_pow2 by lia; rewrite <- bpow_plus; f_equal; lia).
    assert (c : (-1022 < e)%Z) by (apply (lt_bpow radix2); lra).
    assert (ex : x = IZR k * B (e - 53)) by (unfold x; rewrite er, <- b1; ring). rewrite rnd_id; [nra|]. rewrite ex. apply format_FLT_make; lia.
  - (* the number below is nearer *)
    assert (p52 : B e = IZR (2 ^ 52) * B (e - 52)) by (rewrite IZR_pow2 by lia; rewrite <- bpow_plus; f_equal; lia).
    assert (p53 : B e0 = IZR (2 ^ 53) * B (e - 52)) by (rewrite IZR_pow2 by lia; rewrite <- bpow_plus; f_equal; unfold e; lia).
    assert (b4 : 0 < B (e - 52)) by apply bpow_gt_0.
    assert (m1 : (2 ^ 52 <= m)%Z). { apply le_IZR. apply Rmult_le_reg_r with (1 := b4). rewrite <- p52, <- em. lra. }
    assert (m2 : (m < 2 ^ 53)%Z). { apply lt_IZR. apply Rmult_lt_reg_r with (1 := b4). rewrite <- p53, <- em. lra. }
    set (F := IZR (m - 1) * B (e - 52)). assert (fF : generic_format radix2 fexp64 F) by (apply format_FLT_make; lia).
    assert (eF : F = r - B (e - 52)) by (unfold F; rewrite minus_IZR, em; ring).
    assert (rB : B e < r). { rewrite em, p52. apply Rmult_lt_compat_r; [exact b4|]. apply IZR_lt. lia. }
    assert (hx2 : x < r - B (e - 53)). { apply Rle_lt_trans with (1 := hx). rewrite <- b1. nra. }
    assert (le : rnd x <= r). { rewrite <- (rnd_id r fr). apply rnd_le. lra. }
    destruct le as [le|eq]; [exact le|]. exfalso.
    destruct (round_N_pt radix2 fexp64 (fun z => negb (Z.even z)) x) as [_ near]. specialize (near F fF). change (round radix2 fexp64 (Znearest _) x) with (rnd x) in near. rewrite eq in near.
    rewrite (Rabs_pos_eq (r - x)) in near by lra. destruct (Rle_lt_dec F x) as [c|c].
    + rewrite Rabs_left1 in near by lra. lra.
    + rewrite Rabs_pos_eq in near by lra. lra.
Qed.
Lemma product_top r k : generic_format radix2 fexp64 r -> 0 <= r -> (0 <= k < 2 ^ 53)%Z -> 0 <= rnd (r * (IZR k * B (-53))) <= r.
Proof.
  intros fr hr hk. pose proof (bpow_gt_0 radix2 (-53)). assert (k0 : 0 <= IZR k) by (apply IZR_le; lia). assert (k1 : IZR k * B (-53) <= 1).
  { replace 1 with (B 53 * B (-53)) by (rewrite <- bpow_plus; reflexivity). apply Rmult_le_compat_r; [lra|]. rewrite <- IZR_pow2 by lia. apply IZR_le. lia. }
  assert (k2 : 0 <= IZR k * B (-53)) by (apply Rmult_le_pos; lra). split; [apply rnd_pos, Rmult_le_pos; lra|]. rewrite <- (rnd_id r fr) at 2. apply rnd_le. nra.
Qed.
Lemma bounded_value range s : finite range -> 0 <= real range ->
  finite (fst (random_bounded_64 range s)) /\ real (fst (random_bounded_64 range s)) = rnd (real range * (IZR (Z.shiftr (fst (random_u64_plus s)) 11) * B (-53))) /\ snd (random_bounded_64 range s) = snd (random_u64_plus s).
Proof.
  intros fr hr. unfold random_bounded_64. pose proof (u64_plus_word s) as w. destruct (random_u64_plus s) as [a s']. cbn [fst snd] in *. destruct (from_u64_real a w) as [f e]. pose proof (shift_range a w) as hs.
  pose proof (product_top (real range) _ (format_real range) hr hs) as pt.
  pose proof (Bmult_correct 53 1024 _ _ mode_NE range (from_u64_64 a)) as p. change (round_mode mode_NE) with ZnearestE in p. rewrite fexp64_eq in p. fold (real range) (real (from_u64_64 a)) in p. rewrite e in p.
  rewrite Rlt_bool_true in p.
  - destruct p as (p1 & p2 & _). split; [unfold finite, fmul; rewrite p2, fr, f; reflexivity|]. split; [exact p1|reflexivity].
  - rewrite Rabs_pos_eq by lra. apply Rle_lt_trans with (1 := proj2 pt). pose proof (abs_B2R_lt_emax 53 1024 range) as m. fold (real range) in m. rewrite Rabs_pos_eq in m by lra. exact m.
Qed.
Lemma bounded_range range s : finite range -> IZR 0 < real range -> finite (fst (random_bounded_64 range s)) /\ 0 <= real (fst (random_bounded_64 range s)) <= real range /\ (B (-1022) < real range -> real (fst (random_bounded_64 range s)) < real range).
Proof.
  intros fr hr. destruct (bounded_value range s fr) as (f & e & _); [lra|]. split; [exact f|]. rewrite e. pose proof (shift_range _ (u64_plus_word s)) as hs. split.
  - apply product_top; [apply format_real|lra|exact hs].
  - intros h. apply product_below; [apply format_real|exact h|exact hs].
Qed.
Lemma shift_q a : Q2R (f64_from_u64 a) = IZR (Z.shiftr a 11) * B (-53).
Proof. unfold f64_from_u64. rewrite Q2R_mult. unfold Q2R at 1. cbn [inject_Z Qnum Qden]. rewrite Rinv_1, Rmult_1_r. f_equal. unfold Q2R. cbn [Qnum Qden]. rewrite Rmult_1_l. change (-53)%Z with (- (53))%Z. rewrite bpow_opp. reflexivity. Qed.
Lemma bounded_error range s : finite range -> 0 < real range ->
  Rabs (real (fst (random_bounded_64 range s)) - real range * Q2R (fst (random_f64_0to1 s))) <= u * real range + B (-1022) /\ snd (random_bounded_64 range s) = snd (random_f64_0to1 s).
Proof.
  intros fr hr. destruct (bounded_value range s fr) as (f & e & es); [lra|]. rewrite e, es. pose proof (shift_range _ (u64_plus_word s)) as hs. unfold random_f64_0to1, random_f64_bounded. destruct (random_u64_plus s) as [a s']. cbn [fst snd] in *. split; [|reflexivity].
  rewrite Q2R_mult, shift_q. replace (Q2R 1) with 1 by (unfold Q2R; cbn; lra). rewrite Rmult_1_l. set (k := Z.shiftr a 11) in *. set (x := real range * (IZR k * B (-53))).
  pose proof (bpow_gt_0 radix2 (-53)). assert (k0 : 0 <= IZR k) by (apply IZR_le; lia). assert (k1 : IZR k * B (-53) <= 1).
  { replace 1 with (B 53 * B (-53)) by (rewrite <- bpow_plus; reflexivity). apply Rmult_le_compat_r; [lra|]. rewrite <- IZR_pow2 by lia. apply IZR_le. lia. }
  assert (0 <= IZR k * B (-53)) by (apply Rmult_le_pos; lra). assert (x <= real range) by (unfold x; nra). assert (0 <= x) by (unfold x; nra). pose proof u_pos.
  eapply Rle_trans; [apply rnd_any|]. rewrite Rabs_pos_eq by assumption. nra.
Qed.
Lemma unit_exact s : finite (fst (random_0to1_64 s)) /\ real (fst (random_0to1_64 s)) = Q2R (fst (random_f64_0to1 s)) /\ snd (random_0to1_64 s) = snd (random_f64_0to1 s) /\ 0 <= real (fst (random_0to1_64 s)) < 1.
Proof.
  destruct (f_of_Z_exact 1 ltac:(lia)) as [f1 e1]. unfold random_0to1_64. destruct (bounded_value (f_of_Z 1) s f1) as (f & e & es); [lra|].
  destruct (bounded_range (f_of_Z 1) s f1) as (_ & b1 & b2); [rewrite e1; apply IZR_lt; lia|]. specialize (b2 ltac:(rewrite e1; change 1 with (B 0); apply bpow_lt; lia)). rewrite e1 in *.
  split; [exact f|]. split; [|split; [|lra]].
  - rewrite e, Rmult_1_l. pose proof (shift_range _ (u64_plus_word s)) as hs. unfold random_f64_0to1, random_f64_bounded. destruct (random_u64_plus s) as [a s']. cbn [fst] in *. rewrite Q2R_mult, shift_q. replace (Q2R 1) with 1 by (unfold Q2R; cbn; lra). rewrite Rmult_1_l. apply rnd_id, format_FLT_make; lia.
  - rewrite es. unfold random_f64_0to1, random_f64_bounded. destruct (random_u64_plus s) as [a s']. reflexivity.
Qed.
Lemma full_exact s : finite (fst (random_f64_64 s)) /\ real (fst (random_f64_64 s)) = Q2R (fst (random_f64 s)) /\ snd (random_f64_64 s) = snd (random_f64 s) /\ 0 <= real (fst (random_f64_64 s)) < 1.
Proof.
  unfold random_f64_64, random_f64. pose proof (u64_word s) as w. destruct (random_u64 s) as [a s']. cbn [fst snd] in *. destruct (from_u64_real a w) as [f e]. pose proof (shift_range a w) as hs. rewrite e, shift_q. splits; auto.
  - apply Rmult_le_pos; [apply IZR_le; lia|apply bpow_ge_0].
  - replace 1 with (B 53 * B (-53)) by (rewrite <- bpow_plus; reflexivity). apply Rmult_lt_compat_r; [apply bpow_gt_0|]. rewrite <- IZR_pow2 by lia. apply IZR_lt. lia.
Qed.
Lemma signed_exact s : finite (fst (random_1to1_64 s)) /\ real (fst (random_1to1_64 s)) = Q2R (fst (random_f64_1to1 s)) /\ snd (random_1to1_64 s) = snd (random_f64_1to1 s) /\ -1 <= real (fst (random_1to1_64 s)) < 1.
Proof.
  destruct (f_of_Z_exact 1 ltac:(lia)) as [f1 e1]. destruct (f_of_Z_exact 2 ltac:(lia)) as [f2 e2]. unfold random_1to1_64. destruct (bounded_value (f_of_Z 2) s f2) as (f & e & es); [rewrite e2; lra|].
  pose proof (shift_range _ (u64_plus_word s)) as hs. unfold random_f64_1to1, random_f64_bounded. destruct (random_bounded_64 (f_of_Z 2) s) as [x s2]. destruct (random_u64_plus s) as [a s']. cbn [fst snd] in *. subst s2.
  set (k := Z.shiftr a 11) in *. rewrite e2 in e. assert (ex : 2 * (IZR k * B (-53)) = IZR k * B (-52)) by (change (-52)%Z with (1 + -53)%Z; rewrite bpow_plus; change (B 1) with 2; ring).
  rewrite ex, rnd_id in e by (apply format_FLT_make; lia).
  assert (ed : IZR k * B (-52) - 1 = IZR (k - 2 ^ 52) * B (-52)). { rewrite minus_IZR, Rmult_minus_distr_r, (IZR_pow2 52), <- bpow_plus by lia. reflexivity. }
  assert (rg : -1 <= IZR k * B (-52) - 1 < 1). { assert (0 <= IZR k) by (apply IZR_le; lia). assert (IZR k < B 53) by (rewrite <- IZR_pow2 by lia; apply IZR_lt; lia). pose proof (bpow_gt_0 radix2 (-52)). assert (B 53 * B (-52) = 2) by (rewrite <- bpow_plus; reflexivity). nra. }
  destruct (fsub_ok x (f_of_Z 1) f f1) as (f3 & r3 & _). { rewrite e, e1. apply Rabs_le. assert (B 0 <= B 1000) by (apply bpow_le; lia). change (B 0) with 1 in *. pose proof big_1000. lra. }
  rewrite e, e1, rnd_id in r3 by (rewrite ed; apply format_FLT_make; lia). split; [exact f3|]. rewrite r3. split; [|split; [reflexivity|exact rg]].
  rewrite Q2R_minus, Q2R_mult, shift_q. fold k. replace (Q2R 1) with 1 by (unfold Q2R; cbn; lra). replace (Q2R 2) with 2 by (unfold Q2R; cbn; lra). rewrite ex. reflexivity.
Qed.
(** at or below the smallest normal number the range itself is a result *)
Lemma tiny_nearest m : (1 <= m <= 2 ^ 52)%Z -> ZnearestE (IZR m - IZR m * B (-53)) = m.
Proof.
  intros h. pose proof (bpow_gt_0 radix2 (-53)). assert (e : B 52 * B (-53) = / 2) by (rewrite <- bpow_plus; reflexivity). assert (1 <= IZR m) by (apply IZR_le; lia).
  destruct (Z.eq_dec m (2 ^ 52)) as [->|n].
  - rewrite (IZR_pow2 52), e by lia. unfold Znearest. replace (Zfloor (B 52 - / 2)) with (2 ^ 52 - 1)%Z.
    + rewrite minus_IZR, (IZR_pow2 52) by lia. replace (B 52 - / 2 - (B 52 - 1)) with (/ 2) by lra. rewrite Rcompare_Eq by reflexivity. change (negb (Z.even (2 ^ 52 - 1))) with true. cbn [negb]. apply Zceil_imp. rewrite minus_IZR, (IZR_pow2 52) by lia. lra.
    + symmetry. apply Zfloor_imp. replace (2 ^ 52 - 1 + 1)%Z with (2 ^ 52)%Z by lia. rewrite minus_IZR, (IZR_pow2 52) by lia. lra.
  - apply Znearest_imp. replace (IZR m - IZR m * B (-53) - IZR m) with (- (IZR m * B (-53))) by ring. assert (IZR m < B 52) by (rewrite <- IZR_pow2 by lia; apply IZR_lt; lia). rewrite Rabs_Ropp, Rabs_pos_eq by nra. nra.
Qed.
Lemma tiny_reached range s : finite range -> 0 < real range <= B (-1022) -> fst (random_u64_plus s) = (2 ^ 64 - 1)%Z -> real (fst (random_bounded_64 range s)) = real range.
Proof.
  intros fr hr hs. destruct (bounded_value range s fr) as (_ & e & _); [lra|]. rewrite e, hs. change (Z.shiftr (2 ^ 64 - 1) 11) with (2 ^ 53 - 1)%Z. destruct (format_min _ (format_real range)) as [m em].
  pose proof (bpow_gt_0 radix2 (-1074)). pose proof (bpow_gt_0 radix2 (-53)).
  assert (m1 : (0 < m)%Z). { apply lt_IZR. apply Rmult_lt_reg_r with (B (-1074)); [lra|]. rewrite <- em. lra. }
  assert (m2 : (m <= 2 ^ 52)%Z). { apply le_IZR. apply Rmult_le_reg_r with (B (-1074)); [lra|]. rewrite <- em, (IZR_pow2 52), <- bpow_plus by lia. change (52 + -1074)%Z with (-1022)%Z. lra. }
  assert (c53 : B 53 * B (-53) = 1) by (rewrite <- bpow_plus; reflexivity).
  assert (ex : real range * (IZR (2 ^ 53 - 1) * B (-53)) = (IZR m - IZR m * B (-53)) * B (-1074)). { rewrite em, minus_IZR, (IZR_pow2 53) by lia. rewrite Rmult_minus_distr_r, c53. ring. }
  rewrite ex. set (y := IZR m - IZR m * B (-53)).
  assert (y0 : 0 < y <= IZR m). { unfold y. assert (1 <= IZR m) by (apply IZR_le; lia). assert (B (-53) < B 0) by (apply bpow_lt; lia). change (B 0) with 1 in *. nra. }
  assert (ce : cexp radix2 fexp64 (y * B (-1074)) = (-1074)%Z).
  { unfold cexp, FLT_exp. assert (mag radix2 (y * B (-1074)) <= -1021)%Z; [|lia]. apply mag_le_bpow; [nra|]. rewrite Rabs_pos_eq by nra. apply Rle_lt_trans with (B (-1022)); [|apply bpow_lt; lia]. apply Rle_trans with (IZR m * B (-1074)); [nra|lra]. }
  unfold round, scaled_mantissa, F2R. rewrite ce. cbn [Fnum Fexp]. rewrite Rmult_assoc, <- bpow_plus. change (B (-1074 + - -1074)) with 1. rewrite Rmult_1_r. unfold y. rewrite tiny_nearest by lia. symmetry. exact em.
Qed.
Lemma tiny_real : B (-1022) = / IZR (2 ^ 1022).
Proof. change (-1022)%Z with (- (1022))%Z. rewrite bpow_opp. reflexivity. Qed.
