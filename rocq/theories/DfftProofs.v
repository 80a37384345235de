(** Rounding errors of the Fourier transform for powers of two *)
From Coq Require Import ZArith Reals List Bool Lia Lra Psatz.
From Flocq Require Import Core BinarySingleNaN.
From Verif Require Import Base DblModel DblSpec DblProofs Dbl2Proofs DlineProofs KerSpec KerProofs PiProofs FftModel FftSpec FftBits FftComplex FftRunProofs FftProofs CmodProofs DfftModel DfftSpec.
Open Scope R_scope.

Notation "'eta'" := (B (-1022)).
Lemma eta_pos : 0 < eta. Proof. apply bpow_gt_0. Qed.
Definition P64 : Type := (f64 * f64)%type.
Definition fin2 (z : P64) : Prop := finite (fst z) /\ finite (snd z).
Definition val (z : P64) : C := (real (fst z), real (snd z)).
Notation padd64 := (padd f64 fadd).
Notation psub64 := (psub f64 fsub).
Notation twiddle64 := (ptwiddle f64 fadd fmul fneg).
Notation pmul64 := (pmul f64 fadd fsub fmul).
Lemma bpow_1020 : B 1020 + B 1020 <= B 1022.
Proof. replace (B 1022) with (4 * B 1020) by (change 4 with (B 2); rewrite <- bpow_plus; reflexivity). pose proof (bpow_gt_0 radix2 1020). lra. Qed.
Lemma bpow_mul (k : Z) (a b : Z) : B a * B b = B (a + b). Proof. symmetry. apply bpow_plus. Qed.
Lemma rel_abs x e : Rabs e <= u -> Rabs (x * (1 + e) - x) <= u * Rabs x.
Proof. intros h. replace (x * (1 + e) - x) with (e * x) by ring. rewrite Rabs_mult. apply Rmult_le_compat_r; [apply Rabs_pos|exact h]. Qed.
Lemma fadd_err a b : finite a -> finite b -> Rabs (real a) <= B 1020 -> Rabs (real b) <= B 1020 -> finite (fadd a b) /\ Rabs (real (fadd a b) - (real a + real b)) <= u * Rabs (real a + real b).
Proof.
  intros fa fb ha hb. destruct (fadd_ok a b fa fb) as (h1 & _ & e & he & h3); [eapply Rle_trans; [apply Rabs_triang|]; pose proof bpow_1020; lra|].
  split; [exact h1|]. rewrite h3. apply rel_abs. exact he.
Qed.
Lemma fsub_err a b : finite a -> finite b -> Rabs (real a) <= B 1020 -> Rabs (real b) <= B 1020 -> finite (fsub a b) /\ Rabs (real (fsub a b) - (real a - real b)) <= u * Rabs (real a - real b).
Proof.
  intros fa fb ha hb. destruct (fsub_ok a b fa fb) as (h1 & _ & e & he & h3); [unfold Rminus; eapply Rle_trans; [apply Rabs_triang|]; rewrite Rabs_Ropp; pose proof bpow_1020; lra|].
  split; [exact h1|]. rewrite h3. apply rel_abs. exact he.
Qed.
Lemma padd_err a b : fin2 a -> fin2 b -> cmod (val a) <= B 1020 -> cmod (val b) <= B 1020 ->
  fin2 (padd64 a b) /\ cmod (val (padd64 a b) -c (val a +c val b)) <= u * cmod (val a +c val b).
Proof.
  intros [fa1 fa2] [fb1 fb2] ha hb. pose proof (cmod_fst (val a)). pose proof (cmod_snd (val a)). pose proof (cmod_fst (val b)). pose proof (cmod_snd (val b)). cbn [val fst snd] in *.
  destruct (fadd_err (fst a) (fst b) fa1 fb1) as [h1 h2]; try lra. destruct (fadd_err (snd a) (snd b) fa2 fb2) as [h3 h4]; try lra.
  split; [split; assumption|]. pose proof u_pos. apply cmod_scale; cbn [val padd csub cadd fst snd]; [lra|exact h2|exact h4].
Qed.
Lemma psub_err a b : fin2 a -> fin2 b -> cmod (val a) <= B 1020 -> cmod (val b) <= B 1020 ->
  fin2 (psub64 a b) /\ cmod (val (psub64 a b) -c (val a -c val b)) <= u * cmod (val a -c val b).
Proof.
  intros [fa1 fa2] [fb1 fb2] ha hb. pose proof (cmod_fst (val a)). pose proof (cmod_snd (val a)). pose proof (cmod_fst (val b)). pose proof (cmod_snd (val b)). cbn [val fst snd] in *.
  destruct (fsub_err (fst a) (fst b) fa1 fb1) as [h1 h2]; try lra. destruct (fsub_err (snd a) (snd b) fa2 fb2) as [h3 h4]; try lra.
  split; [split; assumption|]. pose proof u_pos. apply cmod_scale; cbn [val psub csub cadd fst snd]; [lra|exact h2|exact h4].
Qed.
Lemma fmul_err a b : finite a -> finite b -> Rabs (real a * real b) <= B 1018 -> finite (fmul a b) /\ Rabs (real (fmul a b) - real a * real b) <= u * Rabs (real a * real b) + eta /\ Rabs (real (fmul a b)) <= B 1019.
Proof.
  intros fa fb h. destruct (fmul_fin a b fa fb) as [h1 h2]; [eapply Rle_trans; [exact h|apply bpow_le; lia]|]. rewrite h2. splits; auto; [apply rnd_any|].
  rewrite <- (rnd_id (B 1019)) by (apply format_bpow; lia). apply Rabs_le. rewrite <- rnd_opp. assert (h' : B 1018 <= B 1019) by (apply bpow_le; lia). apply Rabs_le_inv in h. split; apply rnd_le; lra.
Qed.
(** sums and differences of two products *)
Definition dot_bound (p q : R) : R := 5 / 2 * u * (Rabs p + Rabs q) + 3 * eta.
Lemma dot_arith x y p q z : 0 < u <= / 16 -> 0 < eta -> Rabs (x - p) <= u * Rabs p + eta -> Rabs (y - q) <= u * Rabs q + eta -> Rabs (z - (x + y)) <= u * Rabs (x + y) -> Rabs (z - (p + q)) <= dot_bound p q.
Proof.
  intros hu he h1 h2 h3. unfold dot_bound. pose proof (Rabs_pos p) as p1. pose proof (Rabs_pos q) as p2.
  assert (a1 : Rabs (x + y) <= Rabs p + Rabs q + (u * Rabs p + eta + (u * Rabs q + eta))).
  { replace (x + y) with ((p + q) + ((x - p) + (y - q))) by ring. eapply Rle_trans; [apply Rabs_triang|]. eapply Rle_trans; [apply Rplus_le_compat; apply Rabs_triang|]. lra. }
  replace (z - (p + q)) with ((z - (x + y)) + ((x - p) + (y - q))) by ring. eapply Rle_trans; [apply Rabs_triang|]. eapply Rle_trans; [apply Rplus_le_compat; [exact h3|apply Rabs_triang]|].
  assert (u * Rabs (x + y) <= u * (Rabs p + Rabs q + (u * Rabs p + eta + (u * Rabs q + eta)))) by (apply Rmult_le_compat_l; lra).
  assert (u * u * (Rabs p + Rabs q) <= / 16 * u * (Rabs p + Rabs q)) by (apply Rmult_le_compat_r; [lra|]; apply Rmult_le_compat_r; lra).
  assert (u * eta <= / 16 * eta) by (apply Rmult_le_compat_r; lra).
  assert (0 <= u * (Rabs p + Rabs q)) by (apply Rmult_le_pos; lra). lra.
Qed.
Lemma u_range : 0 < u <= / 16. Proof. split; [apply u_pos|apply u_16]. Qed.
Lemma bpow_1019 : B 1019 <= B 1020. Proof. apply bpow_le. lia. Qed.
Lemma dot_add a b c d : finite a -> finite b -> finite c -> finite d -> Rabs (real a * real b) <= B 1018 -> Rabs (real c * real d) <= B 1018 ->
  finite (fadd (fmul a b) (fmul c d)) /\ Rabs (real (fadd (fmul a b) (fmul c d)) - (real a * real b + real c * real d)) <= dot_bound (real a * real b) (real c * real d).
Proof.
  intros fa fb fc fd h1 h2. destruct (fmul_err a b fa fb h1) as (f1 & e1 & m1). destruct (fmul_err c d fc fd h2) as (f2 & e2 & m2). pose proof bpow_1019.
  destruct (fadd_err _ _ f1 f2) as [f3 e3]; try lra. split; [exact f3|]. exact (dot_arith _ _ _ _ _ u_range eta_pos e1 e2 e3).
Qed.
Lemma dot_sub a b c d : finite a -> finite b -> finite c -> finite d -> Rabs (real a * real b) <= B 1018 -> Rabs (real c * real d) <= B 1018 ->
  finite (fsub (fmul a b) (fmul c d)) /\ Rabs (real (fsub (fmul a b) (fmul c d)) - (real a * real b - real c * real d)) <= dot_bound (real a * real b) (real c * real d).
Proof.
  intros fa fb fc fd h1 h2. destruct (fmul_err a b fa fb h1) as (f1 & e1 & m1). destruct (fmul_err c d fc fd h2) as (f2 & e2 & m2). pose proof bpow_1019.
  destruct (fsub_err _ _ f1 f2) as [f3 e3]; try lra. split; [exact f3|]. unfold Rminus in e3 |- *. replace (dot_bound (real a * real b) (real c * real d)) with (dot_bound (real a * real b) (- (real c * real d))) by (unfold dot_bound; rewrite Rabs_Ropp; reflexivity).
  refine (dot_arith _ _ _ _ _ u_range eta_pos e1 _ e3). rewrite Rabs_Ropp. replace (- real (fmul c d) - - (real c * real d)) with (- (real (fmul c d) - real c * real d)) by ring. rewrite Rabs_Ropp. exact e2.
Qed.
Lemma fneg_ok a : finite a -> finite (fneg a) /\ real (fneg a) = - real a.
Proof. intros h. unfold finite, real, fneg. rewrite is_finite_Bopp, B2R_Bopp. auto. Qed.
Lemma prod_comp (a b : C) m : cmod a * cmod b <= m -> Rabs (fst a * fst b) <= m /\ Rabs (snd a * snd b) <= m /\ Rabs (fst a * snd b) <= m /\ Rabs (snd a * fst b) <= m.
Proof.
  intros h. pose proof (cmod_dot a b). pose proof (cmod_cross a b). pose proof (Rabs_pos (fst a * fst b)). pose proof (Rabs_pos (snd a * snd b)). pose proof (Rabs_pos (fst a * snd b)). pose proof (Rabs_pos (snd a * fst b)). lra.
Qed.
Lemma twiddle_err w z : fin2 w -> fin2 z -> cmod (val w) * cmod (val z) <= B 1018 ->
  fin2 (twiddle64 w z) /\ cmod (val (twiddle64 w z) -c twiddle_r (val w) (val z)) <= 5 * u * (cmod (val w) * cmod (val z)) + 6 * eta.
Proof.
  intros [fw1 fw2] [fz1 fz2] h. rewrite (Rmult_comm (cmod (val w))) in *. destruct (prod_comp (val z) (val w) _ h) as (p1 & p2 & p3 & p4). cbn [val fst snd] in p1, p2, p3, p4. destruct (fneg_ok (fst z) fz1) as [fn en].
  destruct (dot_add (fst z) (fst w) (snd z) (snd w)) as [f1 e1]; auto. destruct (dot_add (fneg (fst z)) (snd w) (snd z) (fst w)) as [f2 e2]; auto; [rewrite en, <- Ropp_mult_distr_l, Rabs_Ropp; exact p3|].
  split; [split; assumption|]. rewrite en in e2.
  eapply Rle_trans; [apply (cmod_le_sum _ (dot_bound (real (fst z) * real (fst w)) (real (snd z) * real (snd w))) (dot_bound (real (fst z) * real (snd w)) (real (snd z) * real (fst w))))|].
  - exact e1.
  - replace (dot_bound (- real (fst z) * real (snd w)) (real (snd z) * real (fst w))) with (dot_bound (real (fst z) * real (snd w)) (real (snd z) * real (fst w))) in e2 by (unfold dot_bound; rewrite <- Ropp_mult_distr_l, Rabs_Ropp; reflexivity). exact e2.
  - unfold dot_bound. pose proof (cmod_dot (val z) (val w)) as d1. pose proof (cmod_cross (val z) (val w)) as d2. cbn [val fst snd] in d1, d2. pose proof u_pos. nra.
Qed.
Lemma pmul_err a b : fin2 a -> fin2 b -> cmod (val a) * cmod (val b) <= B 1018 ->
  fin2 (pmul64 a b) /\ cmod (val (pmul64 a b) -c val a *c val b) <= 5 * u * (cmod (val a) * cmod (val b)) + 6 * eta.
Proof.
  intros [fa1 fa2] [fb1 fb2] h. destruct (prod_comp (val a) (val b) _ h) as (p1 & p2 & p3 & p4). cbn [val fst snd] in p1, p2, p3, p4.
  destruct (dot_sub (fst a) (fst b) (snd a) (snd b)) as [f1 e1]; auto. destruct (dot_add (snd a) (fst b) (fst a) (snd b)) as [f2 e2]; auto.
  split; [split; assumption|].
  eapply Rle_trans; [apply (cmod_le_sum _ (dot_bound (real (fst a) * real (fst b)) (real (snd a) * real (snd b))) (dot_bound (real (snd a) * real (fst b)) (real (fst a) * real (snd b))))|].
  - exact e1.
  - cbn [val pmul csub cmul fst snd]. rewrite (Rplus_comm (real (fst a) * real (snd b))). exact e2.
  - unfold dot_bound. pose proof (cmod_dot (val a) (val b)) as d1. pose proof (cmod_cross (val a) (val b)) as d2. cbn [val fst snd] in d1, d2. pose proof u_pos. nra.
Qed.

(** ** the tables *)
Lemma eta_u : eta <= u / 1000.
Proof. rewrite u_val. assert (h : eta <= B (-53 + -10)) by (apply bpow_le; lia). rewrite bpow_plus in h. change (B (-10)) with (/ 1024) in h. pose proof (bpow_gt_0 radix2 (-53)). lra. Qed.
Lemma m_pi_ok : finite m_pi /\ Rabs (PI - real m_pi) <= 5 / 4 * u.
Proof.
  destruct (fmake_exact 884279719003555 (-48)) as [h1 h2]; [reflexivity|lia|]. split; [exact h1|]. unfold m_pi. rewrite h2. pose proof pi_close as h.
  replace (5 / 4 * u) with (5 / IZR (2 ^ 55)) by (unfold u; change (IZR (2 ^ 55)) with (IZR (4 * 2 ^ 53)); rewrite (mult_IZR 4); field; apply IZR_neq; discriminate). exact h.
Qed.
Lemma PI_range : 3141 / 1000 <= PI <= 3142 / 1000.
Proof. destruct m_pi_ok as [_ h]. pose proof pi_close as h'. apply Rabs_le_inv in h'. pose proof (u_bound 100000 ltac:(lia) ltac:(intro; discriminate)) as hu. 
  assert (e : 5 / IZR (2 ^ 55) <= / 100000) by (apply Rmult_le_reg_r with (IZR (2 ^ 55)); [apply IZR_lt; reflexivity|]; unfold Rdiv; rewrite Rmult_assoc, Rinv_l by (apply IZR_neq; discriminate); rewrite Rmult_1_r; change (2 ^ 55)%Z with 36028797018963968%Z; lra).
  change (IZR 884279719003555 / IZR (2 ^ 48)) with (884279719003555 / 281474976710656) in h'. lra. Qed.
Lemma f_of_nat_ok n : (Z.of_nat n < 2 ^ 53)%Z -> finite (f_of_nat n) /\ real (f_of_nat n) = INR n.
Proof. intros h. rewrite INR_IZR_INZ. apply f_of_Z_exact. lia. Qed.
Lemma angle_err (c : f64) i n : finite c -> 0 <= real c <= 7 -> (0 < n)%nat -> (Z.of_nat n <= 2 ^ 36)%Z -> (i <= 2 * n)%nat -> real c * INR i / INR n <= 63 / 10 ->
  let a := fdiv (fmul c (f_of_nat i)) (f_of_nat n) in finite a /\ Rabs (real a - real c * INR i / INR n) <= 2 * u * (real c * INR i / INR n) + u / 16.
Proof.
  intros fc hc hn hn2 hi ht a. destruct (f_of_nat_ok i ltac:(lia)) as [fi ei]. destruct (f_of_nat_ok n ltac:(lia)) as [fn en].
  assert (hn1 : 1 <= INR n) by (change 1 with (INR 1); apply le_INR; lia). assert (hi1 : 0 <= INR i <= B 40).
  { split; [apply pos_INR|]. rewrite INR_IZR_INZ. rewrite <- IZR_pow2 by lia. apply IZR_le. lia. }
  pose proof u_pos as hu. pose proof eta_u as he. pose proof eta_pos as he0. pose proof (u_bound 1000 ltac:(lia) ltac:(intro; discriminate)) as hus.
  assert (big : 7 * B 40 <= B 1018). { assert (h : B 40 * B 3 <= B 1018) by (rewrite <- bpow_plus; apply bpow_le; lia). change (B 3) with 8 in h. pose proof (bpow_gt_0 radix2 40). lra. }
  set (th := real c * INR i / INR n) in *. assert (hci : 0 <= real c * INR i <= 7 * B 40) by (split; [apply Rmult_le_pos; lra|apply Rmult_le_compat; lra]).
  assert (hth : 0 <= th) by (unfold th, Rdiv; apply Rmult_le_pos; [lra|]; apply Rlt_le, Rinv_0_lt_compat; lra).
  destruct (fmul_err c (f_of_nat i) fc fi) as (f1 & e1 & m1); [rewrite ei, Rabs_pos_eq; lra|]. rewrite ei in e1. rewrite (Rabs_pos_eq (real c * INR i)) in e1 by lra.
  set (x := real (fmul c (f_of_nat i))) in *.
  assert (hx : Rabs (x / INR n - th) <= u * th + eta).
  { unfold th. replace (x / INR n - real c * INR i / INR n) with ((x - real c * INR i) * / INR n) by (field; lra). rewrite Rabs_mult. rewrite (Rabs_pos_eq (/ INR n)) by (apply Rlt_le, Rinv_0_lt_compat; lra).
    eapply Rle_trans; [apply Rmult_le_compat_r; [apply Rlt_le, Rinv_0_lt_compat; lra|exact e1]|]. rewrite Rmult_plus_distr_r. unfold Rdiv. rewrite Rmult_assoc. apply Rplus_le_compat_l.
    rewrite <- (Rmult_1_r eta) at 2. apply Rmult_le_compat_l; [lra|]. rewrite <- Rinv_1. apply Rinv_le_contravar; lra. }
  assert (hut : u * th <= 63 / 10000) by (assert (u * th <= / 1000 * (63 / 10)) by (apply Rmult_le_compat; lra); lra).
  assert (hxa : Rabs (x / INR n) <= th + u * th + eta). { replace (x / INR n) with (th + (x / INR n - th)) by ring. eapply Rle_trans; [apply Rabs_triang|]. rewrite (Rabs_pos_eq th) by lra. lra. }
  assert (b10 : 10 <= B 1022). { assert (h : B 4 <= B 1022) by (apply bpow_le; lia). change (B 4) with 16 in h. lra. }
  destruct (fdiv_fin (fmul c (f_of_nat i)) (f_of_nat n) f1) as [f2 e2]; [rewrite en; lra|rewrite en; fold x; lra|]. split; [exact f2|]. unfold a. rewrite e2, en. fold x.
  pose proof (rnd_any (x / INR n)) as hr. replace (rnd (x / INR n) - th) with ((rnd (x / INR n) - x / INR n) + (x / INR n - th)) by ring. eapply Rle_trans; [apply Rabs_triang|].
  assert (u * Rabs (x / INR n) <= u * (th + u * th + eta)) by (apply Rmult_le_compat_l; lra).
  assert (u * (u * th) <= u * (63 / 10000)) by (apply Rmult_le_compat_l; lra). assert (u * eta <= / 1000 * eta) by (apply Rmult_le_compat_r; lra). lra.
Qed.
Lemma two_pi_ok : finite (fmul (f_of_Z 2) m_pi) /\ real (fmul (f_of_Z 2) m_pi) = 2 * real m_pi.
Proof.
  destruct m_pi_ok as [f1 e1]. destruct (f_of_Z_exact 2) as [f2 e2]; [reflexivity|]. pose proof PI_range. pose proof u_range. apply Rabs_le_inv in e1.
  assert (b10 : 10 <= B 1022). { assert (h : B 4 <= B 1022) by (apply bpow_le; lia). change (B 4) with 16 in h. lra. }
  destruct (fmul_fin (f_of_Z 2) m_pi f2 f1) as [f3 e3]; [rewrite e2, Rabs_pos_eq; lra|]. split; [exact f3|]. rewrite e3, e2. apply rnd_id.
  unfold m_pi. rewrite (proj2 (fmake_exact 884279719003555 (-48) ltac:(reflexivity) ltac:(lia))). replace (2 * (IZR 884279719003555 * B (-48))) with (IZR 884279719003555 * B (-47)).
  - apply format_FLT_make; [reflexivity|lia].
  - replace (B (-47)) with (2 * B (-48)); [ring|]. change 2 with (B 1). rewrite <- bpow_plus. reflexivity.
Qed.
Section Tables.
Variable d : R.
Variable fcos fsin : f64 -> f64.
Hypothesis libm : libm_within d fcos fsin.
Lemma near_trig (a : f64) t e : finite a -> Rabs (real a) <= 8 -> Rabs (real a - t) <= e ->
  finite (fcos a) /\ Rabs (real (fcos a) - cos t) <= d + e /\ finite (fsin a) /\ Rabs (real (fsin a) - sin t) <= d + e.
Proof.
  intros fa ha he. destruct (libm a fa ha) as (h1 & h2 & h3 & h4). pose proof (cos_lipschitz (real a) t). pose proof (sin_lipschitz (real a) t). splits; auto.
  - replace (real (fcos a) - cos t) with ((real (fcos a) - cos (real a)) + (cos (real a) - cos t)) by ring. eapply Rle_trans; [apply Rabs_triang|]. lra.
  - replace (real (fsin a) - sin t) with ((real (fsin a) - sin (real a)) + (sin (real a) - sin t)) by ring. eapply Rle_trans; [apply Rabs_triang|]. lra.
Qed.
Lemma ratio_le i n k : (0 < n)%nat -> INR i <= k * INR n -> 0 <= INR i / INR n <= k.
Proof.
  intros hn h. assert (0 < INR n) by (apply lt_0_INR; exact hn). pose proof (pos_INR i). split; [apply Rmult_le_pos; [lra|]; apply Rlt_le, Rinv_0_lt_compat; lra|].
  apply Rmult_le_reg_r with (INR n); [lra|]. unfold Rdiv. rewrite Rmult_assoc, Rinv_l by lra. lra.
Qed.
Lemma turn_ok i n : (0 < n)%nat -> (Z.of_nat n <= 2 ^ 36)%Z -> (2 * i <= n)%nat ->
  let t := 2 * PI * INR i / INR n in
  finite (fcos (angle_turn i n)) /\ Rabs (real (fcos (angle_turn i n)) - cos t) <= d + 8 * u /\ finite (fsin (angle_turn i n)) /\ Rabs (real (fsin (angle_turn i n)) - sin t) <= d + 8 * u.
Proof.
  intros hn hn2 hi t. destruct two_pi_ok as [f2 e2]. destruct m_pi_ok as [_ ep]. pose proof PI_range as hp. pose proof (u_bound 1000 ltac:(lia) ltac:(intro; discriminate)) as hus. pose proof u_pos as hu.
  apply Rabs_le_inv in ep. assert (hr : 0 <= INR i / INR n <= / 2). { apply ratio_le; [exact hn|]. assert (h : INR (2 * i) <= INR n) by (apply le_INR; lia). rewrite mult_INR in h. cbn [INR] in h. lra. }
  set (r := INR i / INR n) in *. destruct (angle_err (fmul (f_of_Z 2) m_pi) i n f2) as [f3 e3]; try assumption; try lia; [lra| |].
  - rewrite e2. unfold Rdiv. rewrite Rmult_assoc. change (INR i * / INR n) with r. apply Rle_trans with (2 * (315 / 100) * / 2); [apply Rmult_le_compat; lra|lra].
  - change (fdiv (fmul (fmul (f_of_Z 2) m_pi) (f_of_nat i)) (f_of_nat n)) with (angle_turn i n) in *. rewrite e2 in e3. unfold Rdiv in e3. rewrite !(Rmult_assoc (2 * real m_pi)) in e3. change (INR i * / INR n) with r in e3.
    assert (ht : t = 2 * PI * r) by (unfold t, r, Rdiv; ring).
    assert (hm : 0 <= 2 * real m_pi * r <= 315 / 100) by (split; [apply Rmult_le_pos; lra|]; apply Rle_trans with (2 * (315 / 100) * / 2); [apply Rmult_le_compat; lra|lra]).
    assert (hd : Rabs (2 * real m_pi * r - t) <= 5 / 4 * u). { rewrite ht. replace (2 * real m_pi * r - 2 * PI * r) with ((2 * r) * (real m_pi - PI)) by ring. rewrite Rabs_mult. rewrite (Rabs_pos_eq (2 * r)) by lra.
      assert (Rabs (real m_pi - PI) <= 5 / 4 * u) by (apply Rabs_le; lra). pose proof (Rabs_pos (real m_pi - PI)). nra. }
    assert (he : Rabs (real (angle_turn i n) - t) <= 8 * u). { replace (real (angle_turn i n) - t) with ((real (angle_turn i n) - 2 * real m_pi * r) + (2 * real m_pi * r - t)) by ring. eapply Rle_trans; [apply Rabs_triang|].
      assert (u * (2 * real m_pi * r) <= u * (315 / 100)) by (apply Rmult_le_compat_l; lra). lra. }
    apply near_trig; [exact f3| |exact he]. apply Rabs_le_inv in he. assert (t <= 4) by (rewrite ht; nra). assert (0 <= t) by (rewrite ht; apply Rmult_le_pos; lra). apply Rabs_le. lra.
Qed.
Lemma half_ok i n : (0 < n)%nat -> (Z.of_nat n <= 2 ^ 36)%Z -> (i <= 2 * n)%nat ->
  let t := PI * INR i / INR n in
  finite (fcos (angle_half i n)) /\ Rabs (real (fcos (angle_half i n)) - cos t) <= d + 16 * u /\ finite (fsin (angle_half i n)) /\ Rabs (real (fsin (angle_half i n)) - sin t) <= d + 16 * u.
Proof.
  intros hn hn2 hi t. destruct m_pi_ok as [f2 ep]. pose proof PI_range as hp. pose proof (u_bound 100000 ltac:(lia) ltac:(intro; discriminate)) as hus. pose proof u_pos as hu.
  apply Rabs_le_inv in ep. assert (hr : 0 <= INR i / INR n <= 2). { apply ratio_le; [exact hn|]. assert (h : INR i <= INR (2 * n)) by (apply le_INR; lia). rewrite mult_INR in h. exact h. }
  set (r := INR i / INR n) in *. destruct (angle_err m_pi i n f2) as [f3 e3]; try assumption; try lia; [lra| |].
  - unfold Rdiv. rewrite Rmult_assoc. change (INR i * / INR n) with r. apply Rle_trans with (3145 / 1000 * 2); [apply Rmult_le_compat; lra|lra].
  - change (fdiv (fmul m_pi (f_of_nat i)) (f_of_nat n)) with (angle_half i n) in *. unfold Rdiv in e3. rewrite !(Rmult_assoc (real m_pi)) in e3. change (INR i * / INR n) with r in e3.
    assert (ht : t = PI * r) by (unfold t, r, Rdiv; ring).
    assert (hm : 0 <= real m_pi * r <= 630 / 100) by (split; [apply Rmult_le_pos; lra|]; apply Rle_trans with (3145 / 1000 * 2); [apply Rmult_le_compat; lra|lra]).
    assert (hd : Rabs (real m_pi * r - t) <= 5 / 2 * u). { rewrite ht. replace (real m_pi * r - PI * r) with (r * (real m_pi - PI)) by ring. rewrite Rabs_mult. rewrite (Rabs_pos_eq r) by lra.
      assert (Rabs (real m_pi - PI) <= 5 / 4 * u) by (apply Rabs_le; lra). pose proof (Rabs_pos (real m_pi - PI)). nra. }
    assert (he : Rabs (real (angle_half i n) - t) <= 16 * u). { replace (real (angle_half i n) - t) with ((real (angle_half i n) - real m_pi * r) + (real m_pi * r - t)) by ring. eapply Rle_trans; [apply Rabs_triang|].
      assert (u * (real m_pi * r) <= u * (630 / 100)) by (apply Rmult_le_compat_l; lra). lra. }
    apply near_trig; [exact f3| |exact he]. apply Rabs_le_inv in he. assert (t <= 7) by (rewrite ht; nra). assert (0 <= t) by (rewrite ht; apply Rmult_le_pos; lra). apply Rabs_le. lra.
Qed.
End Tables.
