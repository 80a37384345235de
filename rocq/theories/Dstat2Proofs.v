(** Mean and deviation *)
From Coq Require Import ZArith Reals List Bool Lia Lra Psatz.
From Flocq Require Import Core BinarySingleNaN.
From Verif Require Import Base DblModel DblSpec DblProofs Dbl2Proofs ArrProofs DlineProofs DfftModel DfftProofs DkerProofs Dker2Proofs DconvProofs SortModel DstatModel DstatSpec DstatProofs.
Import ListNotations.
Open Scope R_scope.
Notation tiny := (B (-1022)).

Lemma count_real n : (Z.of_nat n < 2 ^ 32)%Z -> finite (f_of_Z (Z.of_nat n)) /\ real (f_of_Z (Z.of_nat n)) = INR n.
Proof. intros h. destruct (f_of_Z_exact (Z.of_nat n)) as [f e]; [lia|]. split; [exact f|]. rewrite e, INR_IZR_INZ. reflexivity. Qed.
Lemma div_count (s : f64) n : finite s -> (1 <= n)%nat -> (Z.of_nat n < 2 ^ 32)%Z -> Rabs (real s) <= B 1020 ->
  let q := fdiv s (f_of_Z (Z.of_nat n)) in finite q /\ real q = rnd (real s / INR n) /\ Rabs (real q - real s / INR n) <= u * Rabs (real s / INR n) + tiny.
Proof.
  intros fs h1 h32 hs q. destruct (count_real n h32) as [fn en]. assert (hn : 1 <= INR n) by (change 1 with (INR 1); apply le_INR; exact h1).
  assert (hq : Rabs (real s / INR n) <= B 1020). { unfold Rdiv. rewrite Rabs_mult. rewrite (Rabs_right (/ INR n)) by (apply Rle_ge; left; apply Rinv_0_lt_compat; lra). rewrite <- (Rmult_1_r (B 1020)). apply Rmult_le_compat; auto using Rabs_pos; [left; apply Rinv_0_lt_compat; lra|]. rewrite <- Rinv_1. apply Rinv_le_contravar; lra. }
  destruct (fdiv_fin s (f_of_Z (Z.of_nat n)) fs) as [f e].
  - rewrite en. lra.
  - rewrite en. assert (B 1020 <= B 1022) by (apply bpow_le; lia). lra.
  - rewrite en in e. split; [exact f|]. split; [exact e|]. unfold q. rewrite e. apply rnd_any.
Qed.
Lemma small_nu n : (Z.of_nat n < 2 ^ 32)%Z -> INR n * u <= / 2000000.
Proof.
  intros h. assert (INR n <= 4294967296) by (rewrite INR_IZR_INZ; apply IZR_le; lia). pose proof u_num as e. change (2 ^ 53)%Z with 9007199254740992%Z in e. pose proof u_pos. nra.
Qed.
Lemma few_32 n : (Z.of_nat n < 2 ^ 32)%Z -> INR n <= IZR (2 ^ 50).
Proof. intros h. rewrite INR_IZR_INZ. apply IZR_le. lia. Qed.
Lemma mean_near a n : (1 <= n <= length a)%nat -> (Z.of_nat n < 2 ^ 32)%Z -> Forall finite (firstn n a) -> real_abs_sum (firstn n a) <= IZR (2 ^ 1000) ->
  exists m, samples_mean64 a n = Some m /\ finite m /\ Rabs (real m - mean (firstn n a)) <= 14 * u * real_abs_sum (firstn n a) + tiny.
Proof.
  intros hn h32 hf hA. rewrite (IZR_pow2 1000) in hA by lia. destruct (sum64_general a n hn (few_32 n h32) hf hA) as (s & e & fs & hs). set (l := firstn n a) in *. set (A := real_abs_sum l) in *.
  assert (hl : length l = n) by (apply firstn_length_le; lia). pose proof u_pos as hu. pose proof (small_nu n h32) as nu. assert (hA0 : 0 <= A) by apply real_abs_sum_pos. assert (h1 : 1 <= INR n) by (change 1 with (INR 1); apply le_INR; lia).
  assert (hab : Rabs (real_sum l) <= A). { unfold A. clear. induction l as [|x l IH]; cbn [real_sum real_abs_sum]; [rewrite Rabs_R0; lra|]. eapply Rle_trans; [apply Rabs_triang|]. lra. }
  assert (hs2 : Rabs (real s) <= 2 * A). { eapply Rle_trans; [apply (near_bound _ _ _ _ hs hab)|]. assert (12 * INR n * u * A <= 12 * / 2000000 * A) by (apply Rmult_le_compat_r; lra). lra. }
  assert (hb : 2 * A <= B 1020). { assert (2 * B 1000 = B 1001) by (change 1001%Z with (1 + 1000)%Z; rewrite bpow_plus; reflexivity). assert (B 1001 <= B 1020) by (apply bpow_le; lia). lra. }
  destruct (div_count s n fs ltac:(lia) h32 ltac:(lra)) as (f & _ & hq). eexists. split; [unfold samples_mean64; rewrite e; reflexivity|]. split; [exact f|].
  assert (hi : 0 < / INR n <= 1) by (split; [apply Rinv_0_lt_compat; lra|rewrite <- Rinv_1; apply Rinv_le_contravar; lra]).
  assert (hd : Rabs (real s / INR n - mean l) <= 12 * u * A).
  { unfold mean. rewrite hl. replace (real s / INR n - real_sum l / INR n) with ((real s - real_sum l) * / INR n) by (field; lra). rewrite Rabs_mult, (Rabs_right (/ INR n)) by lra.
    replace (12 * u * A) with (12 * INR n * u * A * / INR n) by (field; lra). apply Rmult_le_compat_r; [lra|exact hs]. }
  assert (hq2 : Rabs (real s / INR n) <= 2 * A). { unfold Rdiv. rewrite Rabs_mult, (Rabs_right (/ INR n)) by lra. rewrite <- (Rmult_1_r (2 * A)). apply Rmult_le_compat; try lra. apply Rabs_pos. }
  assert (u * Rabs (real s / INR n) <= u * (2 * A)) by (apply Rmult_le_compat_l; lra). eapply Rle_trans; [apply (via _ _ _ _ _ hq hd)|]. lra.
Qed.
(** the mean is not far outside of the values *)
Lemma abs_sum_le (l : list f64) m : Forall (fun x => Rabs (real x) <= m) l -> real_abs_sum l <= INR (length l) * m.
Proof. apply real_abs_sum_le. Qed.

(** ** sums of squares *)
Lemma fadd_inv a b : finite (fadd a b) -> finite a /\ finite b /\ real (fadd a b) = rnd (real a + real b).
Proof.
  intros h. assert (fa : finite a) by (destruct a, b; try reflexivity; cbn in h; try discriminate; destruct s, s0; discriminate). assert (fb : finite b) by (destruct a, b; try reflexivity; cbn in h; try discriminate; destruct s, s0; discriminate).
  split; [exact fa|]. split; [exact fb|]. pose proof (Bplus_correct 53 1024 _ _ mode_NE a b fa fb) as p. change (round_mode mode_NE) with ZnearestE in p. rewrite fexp64_eq in p. fold (real a) (real b) in p.
  destruct (Rlt_bool _ _); [apply p|]. destruct p as [p _]. unfold finite, fadd in h. fold (fadd a b) in h, p. rewrite <- is_finite_SF_B2SF, p in h. cbn in h. discriminate.
Qed.
Lemma fold_nonneg l : forall acc, finite (fold_left fadd l acc) -> 0 <= real acc -> Forall (fun x => 0 <= real x) l -> 0 <= real (fold_left fadd l acc).
Proof.
  assert (fin : forall l acc, finite (fold_left fadd l acc) -> finite acc) by (induction l0 as [|x t IH]; intros acc h; [exact h|]; apply (fadd_inv acc x); apply IH; exact h).
  induction l as [|x l IH]; intros acc hf ha hl; [exact ha|]. cbn [fold_left] in *. apply Forall_cons_iff in hl as [hx hl]. apply IH; auto. destruct (fadd_inv acc x (fin _ _ hf)) as (_ & _ & ->). apply rnd_pos. lra.
Qed.
Lemma sqrt_near a b e : 0 <= a -> 0 <= b -> Rabs (a - b) <= e -> Rabs (sqrt a - sqrt b) <= sqrt e.
Proof.
  intros ha hb h. assert (e0 : 0 <= e) by (pose proof (Rabs_pos (a - b)); lra). pose proof (sqrt_pos a) as pa. pose proof (sqrt_pos b) as pb. pose proof (sqrt_pos e) as pe. pose proof (sqrt_sqrt a ha). pose proof (sqrt_sqrt b hb). pose proof (sqrt_sqrt e e0).
  apply Rabs_le_inv in h. apply Rabs_le. split.
  - apply Ropp_le_cancel. rewrite Ropp_involutive. apply Rsqr_incr_0_var; [|exact pe]. unfold Rsqr. destruct (Rle_lt_dec (sqrt b) (sqrt a)); nra.
  - apply Rsqr_incr_0_var; [|exact pe]. unfold Rsqr. destruct (Rle_lt_dec (sqrt b) (sqrt a)); nra.
Qed.
Lemma fsqrt_ok v : finite v -> 0 <= real v -> finite (fsqrt v) /\ real (fsqrt v) = rnd (sqrt (real v)).
Proof.
  intros f h. destruct (Bsqrt_correct 53 1024 _ _ mode_NE v) as (e & g & _). split; [|exact e]. unfold finite, fsqrt. rewrite g. destruct v as [s|s| |s m e' hm]; try discriminate; [reflexivity|]. destruct s; [|reflexivity].
  exfalso. unfold real, B2R in h. cbn [cond_Zopp] in h. assert (F2R (beta := radix2) {| Fnum := Z.opp (Zpos m); Fexp := e' |} < 0) by (apply F2R_lt_0; reflexivity). cbn in h. unfold F2R in *. cbn in *. lra.
Qed.

(** ** deviation *)
Notation beta := (B (-528)).
Lemma tiny_beta m : 0 <= m <= B 480 -> 0 < tiny /\ tiny <= beta / 16 /\ m * tiny <= beta / 16 /\ beta <= / 1000.
Proof.
  intros h. pose proof (bpow_gt_0 radix2 (-1022)). assert (e : beta = 16 * B (-532)) by (change (-528)%Z with (4 + -532)%Z; rewrite bpow_plus; reflexivity). splits; auto.
  - assert (B (-1022) <= B (-532)) by (apply bpow_le; lia). lra.
  - assert (h1 : m * B (-1022) <= B 480 * B (-1022)) by (apply Rmult_le_compat_r; lra). rewrite <- bpow_plus in h1. assert (B (480 + -1022) <= B (-532)) by (apply bpow_le; lia). lra.
  - assert (B (-528) <= B (-10)) by (apply bpow_le; lia). change (B (-10)) with (/ 1024) in *. lra.
Qed.
Lemma square_near (x M : f64) mu m N : finite x -> finite M -> Rabs (real x) <= m -> Rabs mu <= m -> 0 <= m <= B 480 -> 1 <= N -> N * u <= / 2000000 -> Rabs (real M - mu) <= 14 * u * (N * m) + tiny ->
  let p := fmul (fsub x M) (fsub x M) in finite p /\ 0 <= real p /\ Rabs (real p - (real x - mu) ^ 2) <= 78 * (N * u * m * m) + beta /\ real p <= 41 / 10 * m * m + beta.
Proof.
  intros fx fM hx hmu hm hN hNu hM. destruct (tiny_beta m hm) as (t0 & t1 & t2 & b1). pose proof u_pos as hu. pose proof u_tiny as hut. set (t := tiny) in *.
  assert (um : 0 <= u * m <= / 1000000000 * m) by (split; [apply Rmult_le_pos; lra|apply Rmult_le_compat_r; lra]). assert (Num : 0 <= N * u * m <= / 2000000 * m) by (split; [apply Rmult_le_pos; [apply Rmult_le_pos|]; lra|apply Rmult_le_compat_r; lra]).
  assert (uN : u * m <= N * u * m). { apply Rmult_le_compat_r; [lra|]. rewrite <- (Rmult_1_l u) at 1. apply Rmult_le_compat_r; lra. }
  assert (hd : Rabs (real M - mu) <= 14 * (N * u * m) + t) by (replace (14 * (N * u * m)) with (14 * u * (N * m)) by ring; exact hM).
  assert (hxM : Rabs (real x - real M) <= 201 / 100 * m + t). { replace (real x - real M) with (real x + (- mu + - (real M - mu))) by ring. eapply Rle_trans; [apply Rabs_triang|]. pose proof (Rabs_triang (- mu) (- (real M - mu))) as q. rewrite !Rabs_Ropp in q. lra. }
  assert (m480 : m <= B 480) by apply hm. assert (B 480 <= B 1000) by (apply bpow_le; lia). pose proof big_1000 as hb. pose proof (bpow_gt_0 radix2 1000).  assert (one : 1 <= B 1000) by (change 1 with (B 0); apply bpow_le; lia).
  destruct (fsub_ok x M fx fM) as (f1 & _ & e & he & r1); [lra|]. set (d' := fsub x M) in *.
  assert (ut : u * t <= t) by nra.
  assert (h1 : Rabs (real d' - (real x - real M)) <= u * (201 / 100 * m + t)). { rewrite r1. replace ((real x - real M) * (1 + e) - (real x - real M)) with (e * (real x - real M)) by ring. apply Rabs_prod_le; assumption. }
  set (d := real x - mu) in *. assert (hd2 : Rabs d <= 2 * m). { unfold d, Rminus. eapply Rle_trans; [apply Rabs_triang|]. rewrite Rabs_Ropp. lra. }
  assert (hD : Rabs (real d' - d) <= 18 * (N * u * m) + 2 * t). { replace (real d' - d) with ((real d' - (real x - real M)) + - (real M - mu)) by (unfold d; ring). eapply Rle_trans; [apply Rabs_triang|]. rewrite Rabs_Ropp. lra. }
  assert (hd' : Rabs (real d') <= 202 / 100 * m + 2 * t). { eapply Rle_trans; [apply (near_bound _ _ _ _ hD hd2)|]. lra. }
  set (P := N * u * m * m). assert (hP : 0 <= P) by (unfold P; apply Rmult_le_pos; lra). assert (m2 : 0 <= m * m) by (apply Rmult_le_pos; lra). assert (mt0 : 0 <= m * t) by (apply Rmult_le_pos; lra).
  assert (tt : 0 <= t * t <= t) by (split; [apply Rmult_le_pos; lra|]; rewrite <- (Rmult_1_r t) at 3; apply Rmult_le_compat_l; lra).
  assert (umm : 0 <= u * (m * m) <= P). { split; [apply Rmult_le_pos; lra|]. unfold P. rewrite <- Rmult_assoc. apply Rmult_le_compat_r; lra. }
  assert (Pm : P <= / 2000000 * (m * m)). { unfold P. rewrite <- Rmult_assoc. apply Rmult_le_compat_r; lra. }
  assert (sq : Rabs (real d' * real d') <= (202 / 100 * m + 2 * t) * (202 / 100 * m + 2 * t)) by (apply Rabs_prod_le; assumption).
  assert (sqv : (202 / 100 * m + 2 * t) * (202 / 100 * m + 2 * t) <= 409 / 100 * (m * m) + 9 * (m * t) + 4 * t) by nra.
  assert (mm : m * m <= B 960). { change 960%Z with (480 + 480)%Z. rewrite bpow_plus. apply Rmult_le_compat; lra. }
  assert (B960 : 16 * B 960 <= B 1018). { assert (e16 : 16 * B 960 = B 964) by (change 964%Z with (4 + 960)%Z; rewrite bpow_plus; reflexivity). rewrite e16. apply bpow_le. lia. }
  assert (one960 : 1 <= B 960) by (change 1 with (B 0); apply bpow_le; lia).
  destruct (fmul_err d' d' f1 f1) as (f2 & h2 & _); [lra|]. fold t in h2. change eta with t in h2.
  cbn zeta. split; [exact f2|].
  assert (n2 : Rabs (real (fmul d' d') - real d' * real d') <= 5 * P + m * t + 2 * t).
  { eapply Rle_trans; [exact h2|]. assert (k : u * Rabs (real d' * real d') <= u * (409 / 100 * (m * m) + 9 * (m * t) + 4 * t)) by (apply Rmult_le_compat_l; lra).
    assert (k1 : u * (m * t) <= / 1000000000 * (m * t)) by (apply Rmult_le_compat_r; lra). assert (k2 : u * t <= / 1000000000 * t) by (apply Rmult_le_compat_r; lra). lra. }
  assert (n3 : Rabs (real d' * real d' - d * d) <= 73 * P + 9 * (m * t) + 4 * t).
  { replace (real d' * real d' - d * d) with ((real d' - d) * (real d' + d)) by ring. eapply Rle_trans; [apply (Rabs_prod_le _ _ _ (402 / 100 * m + 2 * t) hD)|].
    - eapply Rle_trans; [apply Rabs_triang|]. lra.
    - replace ((18 * (N * u * m) + 2 * t) * (402 / 100 * m + 2 * t)) with (18 * 402 / 100 * P + 36 * (N * u * m) * t + 804 / 100 * (m * t) + 4 * (t * t)) by (unfold P; field).
      assert (N * u * m * t <= / 2000000 * m * t) by (apply Rmult_le_compat_r; lra). lra. }
  split.
  { destruct (fmul_fin d' d' f1 f1) as [_ ->]; [assert (B 1018 <= B 1022) by (apply bpow_le; lia); lra|]. apply rnd_pos. apply Rle_0_sqr. }
  replace (d ^ 2) with (d * d) by ring. pose proof (via _ _ _ _ _ n2 n3) as n4.
  assert (n5 : Rabs (real (fmul d' d') - d * d) <= 78 * P + beta) by lra. split; [exact n5|].
  apply Rabs_le_inv in n5. assert (d * d <= 4 * (m * m)). { apply Rabs_le_inv in hd2. nra. } lra.
Qed.
