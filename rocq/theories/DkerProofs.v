(** Rounding errors of filter kernels and of the sine table *)
From Coq Require Import ZArith Reals List Bool Lia Lra Psatz.
From Flocq Require Import Core BinarySingleNaN.
From Verif Require Import Base DblModel DblSpec DblProofs Dbl2Proofs DlineProofs KerSpec KerProofs KerFejer PiProofs DfftModel DfftSpec DfftProofs DkerModel DkerSpec.
Open Scope R_scope.

(** ** small facts *)
Lemma u_tiny : u <= / 1000000000000000.
Proof. pose proof (u_bound 1000000000000000 ltac:(lia) ltac:(intro; discriminate)) as h. lra. Qed.
Lemma big_10 : 100000000000000000000 <= B 1018.
Proof. assert (h : B 70 <= B 1018) by (apply bpow_le; lia). change (B 70) with 1180591620717411303424 in h. lra. Qed.
Lemma via x y z a b : Rabs (x - y) <= a -> Rabs (y - z) <= b -> Rabs (x - z) <= a + b.
Proof. intros h1 h2. replace (x - z) with ((x - y) + (y - z)) by ring. eapply Rle_trans; [apply Rabs_triang|]. lra. Qed.
Lemma near_bound x y e m : Rabs (x - y) <= e -> Rabs y <= m -> Rabs x <= m + e.
Proof. intros h1 h2. replace x with (y + (x - y)) by ring. eapply Rle_trans; [apply Rabs_triang|]. lra. Qed.
(** one operation on numbers of moderate size: the result is within [u m + u / 1000] *)
Lemma fmul_near a b x y ea eb m n : finite a -> finite b -> Rabs (real a - x) <= ea -> Rabs (real b - y) <= eb -> Rabs (real a) <= m -> Rabs y <= n -> Rabs (real b) <= n + eb -> m * (n + eb) <= 1000000 ->
  finite (fmul a b) /\ Rabs (real (fmul a b) - x * y) <= u * (m * (n + eb)) + u / 1000 + (m * eb + ea * n).
Proof.
  intros fa fb ha hb hm hn hb2 hs. assert (hp : Rabs (real a * real b) <= m * (n + eb)) by (apply Rabs_prod_le; assumption). pose proof big_10.
  destruct (fmul_err a b fa fb ltac:(lra)) as (f & e & _). split; [exact f|]. pose proof u_pos. pose proof eta_u.
  apply via with (real a * real b).
  - eapply Rle_trans; [exact e|]. assert (u * Rabs (real a * real b) <= u * (m * (n + eb))) by (apply Rmult_le_compat_l; lra). lra.
  - replace (real a * real b - x * y) with (real a * (real b - y) + (real a - x) * y) by ring. eapply Rle_trans; [apply Rabs_triang|]. apply Rplus_le_compat; apply Rabs_prod_le; assumption.
Qed.
Lemma fadd_near a b x y ea eb m : finite a -> finite b -> Rabs (real a - x) <= ea -> Rabs (real b - y) <= eb -> Rabs (real a) <= 1000 -> Rabs (real b) <= 1000 -> Rabs (real a + real b) <= m ->
  finite (fadd a b) /\ Rabs (real (fadd a b) - (x + y)) <= u * m + (ea + eb).
Proof.
  intros fa fb ha hb ma mb hm. pose proof big_10. pose proof bpow_1019. assert (B 1018 <= B 1019) by (apply bpow_le; lia). destruct (fadd_err a b fa fb) as [f e]; try lra. split; [exact f|]. pose proof u_pos.
  apply via with (real a + real b).
  - eapply Rle_trans; [exact e|]. apply Rmult_le_compat_l; lra.
  - replace (real a + real b - (x + y)) with ((real a - x) + (real b - y)) by ring. eapply Rle_trans; [apply Rabs_triang|]. lra.
Qed.
Lemma fsub_near a b x y ea eb m : finite a -> finite b -> Rabs (real a - x) <= ea -> Rabs (real b - y) <= eb -> Rabs (real a) <= 1000 -> Rabs (real b) <= 1000 -> Rabs (real a - real b) <= m ->
  finite (fsub a b) /\ Rabs (real (fsub a b) - (x - y)) <= u * m + (ea + eb).
Proof.
  intros fa fb ha hb ma mb hm. pose proof big_10. pose proof bpow_1019. assert (B 1018 <= B 1019) by (apply bpow_le; lia). destruct (fsub_err a b fa fb) as [f e]; try lra. split; [exact f|]. pose proof u_pos.
  apply via with (real a - real b).
  - eapply Rle_trans; [exact e|]. apply Rmult_le_compat_l; lra.
  - replace (real a - real b - (x - y)) with ((real a - x) + - (real b - y)) by ring. eapply Rle_trans; [apply Rabs_triang|]. rewrite Rabs_Ropp. lra.
Qed.
Lemma fdiv_near a b : finite a -> real b <> 0 -> Rabs (real a / real b) <= 1000 -> finite (fdiv a b) /\ Rabs (real (fdiv a b) - real a / real b) <= u * Rabs (real a / real b) + u / 1000.
Proof.
  intros fa hb h. pose proof big_10. assert (B 1018 <= B 1022) by (apply bpow_le; lia). destruct (fdiv_fin a b fa hb) as [f e]; [lra|]. split; [exact f|]. rewrite e. pose proof eta_u. eapply Rle_trans; [apply rnd_any|]. lra.
Qed.

(** ** the window *)
Lemma four_pi_ok : finite (fmul (f_of_Z 4) m_pi) /\ real (fmul (f_of_Z 4) m_pi) = 4 * real m_pi.
Proof.
  destruct m_pi_ok as [f1 e1]. destruct (f_of_Z_exact 4) as [f2 e2]; [reflexivity|]. pose proof PI_range. pose proof u_range. apply Rabs_le_inv in e1.
  assert (b10 : 100 <= B 1022). { assert (h : B 7 <= B 1022) by (apply bpow_le; lia). change (B 7) with 128 in h. lra. }
  destruct (fmul_fin (f_of_Z 4) m_pi f2 f1) as [f3 e3]; [rewrite e2, Rabs_pos_eq; lra|]. split; [exact f3|]. rewrite e3, e2. apply rnd_id.
  unfold m_pi. rewrite (proj2 (fmake_exact 884279719003555 (-48) ltac:(reflexivity) ltac:(lia))). replace (4 * (IZR 884279719003555 * B (-48))) with (IZR 884279719003555 * B (-46)).
  - apply format_FLT_make; [reflexivity|lia].
  - replace (B (-46)) with (4 * B (-48)); [ring|]. change 4 with (B 2). rewrite <- bpow_plus. reflexivity.
Qed.
Lemma angle_err2 (c : f64) i n : finite c -> 0 <= real c <= 13 -> (0 < n)%nat -> (Z.of_nat n <= 2 ^ 36)%Z -> (i <= n)%nat ->
  let a := fdiv (fmul c (f_of_nat i)) (f_of_nat n) in finite a /\ Rabs (real a - real c * INR i / INR n) <= 2 * u * (real c * INR i / INR n) + u / 16.
Proof.
  intros fc hc hn hn2 hi a. destruct (f_of_nat_ok i ltac:(lia)) as [fi ei]. destruct (f_of_nat_ok n ltac:(lia)) as [fn en].
  assert (hn1 : 1 <= INR n) by (change 1 with (INR 1); apply le_INR; lia). assert (hi1 : 0 <= INR i <= B 40).
  { split; [apply pos_INR|]. rewrite INR_IZR_INZ. rewrite <- IZR_pow2 by lia. apply IZR_le. lia. }
  pose proof u_pos as hu. pose proof eta_u as he. pose proof eta_pos as he0. pose proof (u_bound 1000 ltac:(lia) ltac:(intro; discriminate)) as hus.
  assert (big : 13 * B 40 <= B 1018). { assert (h : B 40 * B 4 <= B 1018) by (rewrite <- bpow_plus; apply bpow_le; lia). change (B 4) with 16 in h. pose proof (bpow_gt_0 radix2 40). lra. }
  assert (hin : INR i <= INR n) by (apply le_INR; exact hi).
  assert (ht : real c * INR i / INR n <= 13). { apply Rmult_le_reg_r with (INR n); [lra|]. unfold Rdiv. rewrite Rmult_assoc, Rinv_l by lra. rewrite Rmult_1_r. apply Rmult_le_compat; lra. }
  set (th := real c * INR i / INR n) in *. assert (hci : 0 <= real c * INR i <= 13 * B 40) by (split; [apply Rmult_le_pos; lra|apply Rmult_le_compat; lra]).
  assert (hth : 0 <= th) by (unfold th, Rdiv; apply Rmult_le_pos; [lra|]; apply Rlt_le, Rinv_0_lt_compat; lra).
  destruct (fmul_err c (f_of_nat i) fc fi) as (f1 & e1 & m1); [rewrite ei, Rabs_pos_eq; lra|]. rewrite ei in e1. rewrite (Rabs_pos_eq (real c * INR i)) in e1 by lra.
  set (x := real (fmul c (f_of_nat i))) in *.
  assert (hx : Rabs (x / INR n - th) <= u * th + eta).
  { unfold th. replace (x / INR n - real c * INR i / INR n) with ((x - real c * INR i) * / INR n) by (field; lra). rewrite Rabs_mult. rewrite (Rabs_pos_eq (/ INR n)) by (apply Rlt_le, Rinv_0_lt_compat; lra).
    eapply Rle_trans; [apply Rmult_le_compat_r; [apply Rlt_le, Rinv_0_lt_compat; lra|exact e1]|]. rewrite Rmult_plus_distr_r. unfold Rdiv. rewrite Rmult_assoc. apply Rplus_le_compat_l.
    rewrite <- (Rmult_1_r eta) at 2. apply Rmult_le_compat_l; [lra|]. rewrite <- Rinv_1. apply Rinv_le_contravar; lra. }
  assert (hut : u * th <= 13 / 1000) by (assert (u * th <= / 1000 * 13) by (apply Rmult_le_compat; lra); lra).
  assert (hxa : Rabs (x / INR n) <= th + u * th + eta). { replace (x / INR n) with (th + (x / INR n - th)) by ring. eapply Rle_trans; [apply Rabs_triang|]. rewrite (Rabs_pos_eq th) by lra. lra. }
  assert (b10 : 16 <= B 1022). { assert (h : B 4 <= B 1022) by (apply bpow_le; lia). change (B 4) with 16 in h. lra. }
  destruct (fdiv_fin (fmul c (f_of_nat i)) (f_of_nat n) f1) as [f2 e2]; [rewrite en; lra|rewrite en; fold x; lra|]. split; [exact f2|]. unfold a. rewrite e2, en. fold x.
  pose proof (rnd_any (x / INR n)) as hr. replace (rnd (x / INR n) - th) with ((rnd (x / INR n) - x / INR n) + (x / INR n - th)) by ring. eapply Rle_trans; [apply Rabs_triang|].
  assert (u * Rabs (x / INR n) <= u * (th + u * th + eta)) by (apply Rmult_le_compat_l; lra).
  assert (u * (u * th) <= u * (13 / 1000)) by (apply Rmult_le_compat_l; lra). assert (u * eta <= / 1000 * eta) by (apply Rmult_le_compat_r; lra). lra.
Qed.
Lemma c042_ok : finite c042 /\ Rabs (real c042 - 42 / 100) <= u.
Proof.
  destruct (fmake_exact 7566047373982433 (-54)) as [f e]; [reflexivity|lia|]. split; [exact f|]. unfold c042. rewrite e. rewrite u_val. replace (B (-53)) with (2 * B (-54)) by (change 2 with (B 1); rewrite <- bpow_plus; reflexivity).
  change (B (-54)) with (/ 18014398509481984). apply Rabs_le. lra.
Qed.
Lemma c008_ok : finite c008 /\ Rabs (real c008 - 8 / 100) <= u.
Proof.
  destruct (fmake_exact 5764607523034235 (-56)) as [f e]; [reflexivity|lia|]. split; [exact f|]. unfold c008. rewrite e. rewrite u_val. replace (B (-53)) with (8 * B (-56)) by (change 8 with (B 3); rewrite <- bpow_plus; reflexivity).
  change (B (-56)) with (/ 72057594037927936). apply Rabs_le. lra.
Qed.
Definition black (i len : nat) : R := 42 / 100 - 5 / 10 * cos (2 * PI * (INR i / (INR len - 1))) + 8 / 100 * cos (4 * PI * (INR i / (INR len - 1))).
Lemma black_range i len : Rabs (black i len) <= 1.
Proof. unfold black. pose proof (COS_bound (2 * PI * (INR i / (INR len - 1)))). pose proof (COS_bound (4 * PI * (INR i / (INR len - 1)))). apply Rabs_le. lra. Qed.
(** ** sin(t) / t *)
Lemma sin_le x : Rabs (sin x) <= Rabs x.
Proof. pose proof (sin_lipschitz x 0) as h. rewrite sin_0, !Rminus_0_r in h. exact h. Qed.
Lemma sinr_le x : x <> 0 -> Rabs (sin x / x) <= 1.
Proof.
  intros h. unfold Rdiv. rewrite Rabs_mult, Rabs_inv. assert (hp : 0 < Rabs x) by (apply Rabs_pos_lt; exact h). apply Rmult_le_reg_r with (Rabs x); [exact hp|].
  rewrite Rmult_assoc, Rinv_l by lra. pose proof (sin_le x). lra.
Qed.
Lemma sinr_close a b : a <> 0 -> b <> 0 -> Rabs (sin a / a - sin b / b) <= 2 * (Rabs (b - a) / Rabs a).
Proof.
  intros ha hb. replace (sin a / a - sin b / b) with ((sin a - sin b) / a + sin b / b * ((b - a) / a)) by (field; split; assumption).
  assert (hp : 0 < Rabs a) by (apply Rabs_pos_lt; exact ha). eapply Rle_trans; [apply Rabs_triang|]. assert (e : forall x, Rabs (x / a) = Rabs x / Rabs a) by (intros x; unfold Rdiv; rewrite Rabs_mult, Rabs_inv; reflexivity).
  rewrite (Rabs_mult (sin b / b)), !e. pose proof (sinr_le b hb). assert (h0 : 0 <= Rabs (b - a) / Rabs a) by (apply Rmult_le_pos; [apply Rabs_pos|]; apply Rlt_le, Rinv_0_lt_compat; lra).
  assert (h1 : Rabs (sin a - sin b) / Rabs a <= Rabs (b - a) / Rabs a) by (apply Rmult_le_compat_r; [apply Rlt_le, Rinv_0_lt_compat; lra|]; rewrite (Rabs_minus_sym b a); apply sin_lipschitz).
  assert (Rabs (sin b / b) * (Rabs (b - a) / Rabs a) <= 1 * (Rabs (b - a) / Rabs a)) by (apply Rmult_le_compat_r; lra). lra.
Qed.
Lemma sinr_one_pos t : 0 < t <= 1 -> Rabs (sin t / t - 1) <= t * t.
Proof.
  intros ht. destruct (MVT_cor2 sin cos 0 t) as (c & e & hc); [lra|intros; apply derivable_pt_lim_sin|]. rewrite sin_0, !Rminus_0_r in e. rewrite e.
  replace (cos c * t / t - 1) with (cos c - cos 0) by (rewrite cos_0; field; lra). rewrite cos_0.
  replace (cos c) with (1 - 2 * sin (c / 2) * sin (c / 2)) by (rewrite <- cos_2a_sin; f_equal; field).
  replace (1 - 2 * sin (c / 2) * sin (c / 2) - 1) with (- (2 * (sin (c / 2) * sin (c / 2)))) by ring. rewrite Rabs_Ropp.
  pose proof (sin_le (c / 2)) as h. rewrite (Rabs_pos_eq (c / 2)) in h by lra. pose proof (Rabs_prod_le _ _ _ _ h h) as h2. rewrite Rabs_mult, (Rabs_pos_eq 2) by lra.
  assert (c * c <= t * t) by (apply Rmult_le_compat; lra). assert (0 <= t * t) by (apply Rmult_le_pos; lra). lra.
Qed.
Lemma sinr_one t : t <> 0 -> Rabs t <= 1 -> Rabs (sin t / t - 1) <= t * t.
Proof.
  intros h0 h. destruct (Rle_lt_dec 0 t) as [hp|hn].
  - rewrite Rabs_pos_eq in h by exact hp. apply sinr_one_pos. lra.
  - rewrite Rabs_left in h by exact hn. pose proof (sinr_one_pos (- t) ltac:(lra)) as k. rewrite sin_neg in k. replace (- sin t / - t) with (sin t / t) in k by (field; exact h0). lra.
Qed.
Lemma is_sinc_tiny X s : Rabs X <= / 1000000000000 -> is_sinc X s -> Rabs (s - 1) <= / 10000 * Rabs X.
Proof.
  intros h [h0 h1]. destruct (Req_EM_T X 0) as [e|n].
  - rewrite (h0 e). replace (1 - 1) with 0 by ring. rewrite Rabs_R0. pose proof (Rabs_pos X). lra.
  - rewrite (h1 n). pose proof PI_range. assert (hp : 0 < Rabs X) by (apply Rabs_pos_lt; exact n).
    assert (hq : Rabs (PI * X) = PI * Rabs X) by (rewrite Rabs_mult, (Rabs_pos_eq PI) by lra; reflexivity).
    eapply Rle_trans; [apply sinr_one|].
    + intros z. apply Rmult_integral in z. lra.
    + rewrite hq. assert (PI * Rabs X <= 4 * / 1000000000000) by (apply Rmult_le_compat; lra). lra.
    + replace (PI * X * (PI * X)) with (Rabs (PI * X) * Rabs (PI * X)) by (rewrite <- Rabs_mult; apply Rabs_pos_eq; nra). rewrite hq. replace (PI * Rabs X * (PI * Rabs X)) with (PI * PI * Rabs X * Rabs X) by ring.
      apply Rmult_le_compat_r; [lra|]. assert (PI * PI * Rabs X <= 4 * 4 * / 1000000000000) by (apply Rmult_le_compat; try lra; [apply Rmult_le_pos; lra|apply Rmult_le_compat; lra]). lra.
Qed.
(** the product with M_PI is not smaller than the other factor *)
Lemma pi_product (x : f64) : finite x -> Rabs (real x) <= B 40 -> finite (fmul m_pi x) /\ Rabs (real (fmul m_pi x) - real m_pi * real x) <= u * Rabs (real m_pi * real x) + eta /\ Rabs (real x) <= Rabs (real (fmul m_pi x)) /\ Rabs (real (fmul m_pi x)) <= 4 * Rabs (real x) + eta.
Proof.
  intros fx hx. destruct m_pi_ok as [fp ep]. pose proof PI_range. pose proof u_tiny. pose proof u_pos. apply Rabs_le_inv in ep. assert (hp : 31 / 10 <= real m_pi <= 32 / 10) by lra.
  assert (hb : Rabs (real m_pi * real x) <= B 1022).
  { rewrite Rabs_mult, (Rabs_pos_eq (real m_pi)) by lra. assert (h : real m_pi * Rabs (real x) <= B 2 * B 40) by (apply Rmult_le_compat; try lra; [apply Rabs_pos|change (B 2) with 4; lra]). rewrite <- bpow_plus in h. eapply Rle_trans; [exact h|apply bpow_le; lia]. }
  destruct (fmul_fin m_pi x fp fx hb) as [f e]. split; [exact f|]. rewrite e. split; [apply rnd_any|].
  split.
  - destruct (Rle_lt_dec 0 (real x)) as [h0|h0].
    + rewrite !Rabs_pos_eq; try lra; try (apply rnd_pos; apply Rmult_le_pos; lra). rewrite <- (rnd_id (real x) (format_real x)) at 1. apply rnd_le; nra.
    + assert (hn : rnd (real m_pi * real x) <= real x) by (rewrite <- (rnd_id (real x) (format_real x)) at 2; apply rnd_le; nra). rewrite (Rabs_left1 (real x)), (Rabs_left1 (rnd _)) by lra. lra.
  - pose proof (near_bound _ _ _ _ (rnd_any (real m_pi * real x)) (Rle_refl _)) as h. rewrite Rabs_mult, (Rabs_pos_eq (real m_pi)) in h by lra. pose proof (Rabs_pos (real x)) as hq.
    assert (real m_pi * Rabs (real x) <= 32 / 10 * Rabs (real x)) by (apply Rmult_le_compat_r; lra). assert (u * (real m_pi * Rabs (real x)) <= / 1000000000000000 * (32 / 10 * Rabs (real x))) by (apply Rmult_le_compat; try lra; apply Rmult_le_pos; lra). lra.
Qed.
Section Ker.
Variable d : R.
Variable fcos fsin : f64 -> f64.
Hypothesis libm : libm_near d fcos fsin.
Hypothesis hd : 0 <= d <= / 1000000.
Lemma cos_near (a : f64) t e : finite a -> Rabs (real a) <= 1000 -> Rabs (real a - t) <= e -> finite (fcos a) /\ Rabs (real (fcos a) - cos t) <= d + e.
Proof.
  intros fa ha he. destruct (libm a fa) as (h1 & h2 & _); [change (2 ^ 40)%Z with 1099511627776%Z; lra|]. pose proof (cos_lipschitz (real a) t). split; [exact h1|]. apply via with (cos (real a)); lra.
Qed.
Lemma turn_near (c : f64) k i n : finite c -> real c = k * real m_pi -> k = 2 \/ k = 4 -> (0 < n)%nat -> (Z.of_nat n <= 2 ^ 36)%Z -> (i <= n)%nat ->
  let a := fdiv (fmul c (f_of_nat i)) (f_of_nat n) in finite (fcos a) /\ Rabs (real (fcos a) - cos (k * PI * (INR i / INR n))) <= d + 8 * k * u.
Proof.
  intros fc ec hk hn hn2 hi a. destruct m_pi_ok as [_ ep]. pose proof PI_range as hp. pose proof u_tiny as hus. pose proof u_pos as hu. pose proof ep as ep'. apply Rabs_le_inv in ep.
  assert (hc : 0 <= real c <= 13) by (rewrite ec; destruct hk; subst k; lra).
  destruct (angle_err2 c i n fc hc hn hn2 hi) as [fa ea]. fold a in fa, ea.
  assert (hr : 0 <= INR i / INR n <= 1). { apply ratio_le; [exact hn|]. rewrite Rmult_1_l. apply le_INR. exact hi. } set (r := INR i / INR n) in *.
  replace (real c * INR i / INR n) with (k * real m_pi * r) in ea by (unfold r; rewrite ec; field; apply not_0_INR; lia).
  assert (hth : 0 <= k * real m_pi * r <= k * (63 / 20)). { split; [apply Rmult_le_pos; [|lra]; destruct hk; subst k; lra|]. rewrite <- (Rmult_1_r (k * (63 / 20))). apply Rmult_le_compat; try lra; destruct hk; subst k; lra. }
  assert (hd2 : Rabs (k * real m_pi * r - k * PI * r) <= k * (5 / 4 * u)).
  { replace (k * real m_pi * r - k * PI * r) with (k * ((real m_pi - PI) * r)) by ring. rewrite Rabs_mult, (Rabs_pos_eq k) by (destruct hk; subst k; lra). apply Rmult_le_compat_l; [destruct hk; subst k; lra|].
    rewrite <- (Rmult_1_r (5 / 4 * u)). apply Rabs_prod_le; [rewrite Rabs_minus_sym; exact ep'|rewrite Rabs_pos_eq; lra]. }
  assert (hut : 2 * u * (k * real m_pi * r) <= 2 * u * (k * (63 / 20))) by (apply Rmult_le_compat_l; lra).
  apply cos_near with (e := 8 * k * u); [exact fa| |].
  - apply Rabs_le_inv in ea. apply Rabs_le. destruct hk; subst k; lra.
  - eapply Rle_trans; [apply (via _ _ _ _ _ ea hd2)|]. destruct hk; subst k; lra.
Qed.
Lemma blackman_near i len : (2 <= len)%nat -> (Z.of_nat len <= 2 ^ 36)%Z -> (i < len)%nat -> finite (blackman64 fcos i len) /\ Rabs (real (blackman64 fcos i len) - black i len) <= d + 17 * u.
Proof.
  intros hl hl2 hi. pose proof u_tiny as hus. pose proof u_pos as hu. destruct two_pi_ok as [g1 q1]. destruct four_pi_ok as [g2 q2].
  destruct (turn_near _ 2 i (len - 1) g1 q1 (or_introl eq_refl)) as [f1 e1]; try lia. destruct (turn_near _ 4 i (len - 1) g2 q2 (or_intror eq_refl)) as [f2 e2]; try lia.
  rewrite minus_INR in e1, e2 by lia. cbn [INR] in e1, e2. fold (angle_turn i (len - 1)) in f1, e1. fold (angle_two i (len - 1)) in f2, e2.
  unfold blackman64, black. set (a1 := fcos (angle_turn i (len - 1))) in *. set (a2 := fcos (angle_two i (len - 1))) in *. set (t1 := cos (2 * PI * (INR i / (INR len - 1)))) in *. set (t2 := cos (4 * PI * (INR i / (INR len - 1)))) in *.
  assert (b1 : Rabs t1 <= 1) by (unfold t1; pose proof (COS_bound (2 * PI * (INR i / (INR len - 1)))); apply Rabs_le; lra). assert (b2 : Rabs t2 <= 1) by (unfold t2; pose proof (COS_bound (4 * PI * (INR i / (INR len - 1)))); apply Rabs_le; lra).
  destruct fhalf_real as [fh eh]. destruct c042_ok as [f3 e3]. destruct c008_ok as [f4 e4].
  assert (hd0 : d * u <= / 1000000 * u) by (apply Rmult_le_compat_r; lra). assert (hu2 : u * u <= / 1000000 * u) by (apply Rmult_le_compat_r; lra).
  destruct (fmul_near fhalf a1 (5 / 10) t1 0 (d + 8 * 2 * u) (/ 2) 1) as [f5 e5]; auto; try (rewrite eh); try (apply Rabs_le; lra).
  { eapply Rle_trans; [apply (near_bound _ _ _ _ e1 b1)|]. lra. } { lra. }
  destruct (fmul_near c008 a2 (8 / 100) t2 u (d + 8 * 4 * u) (81 / 1000) 1) as [f6 e6]; auto.
  { apply Rabs_le_inv in e4. apply Rabs_le. lra. } { eapply Rle_trans; [apply (near_bound _ _ _ _ e2 b2)|]. lra. } { lra. }
  assert (e5' : Rabs (real (fmul fhalf a1) - 5 / 10 * t1) <= / 2 * d + 9 * u) by (eapply Rle_trans; [exact e5|]; lra).
  assert (e6' : Rabs (real (fmul c008 a2) - 8 / 100 * t2) <= / 10 * d + 4 * u) by (eapply Rle_trans; [exact e6|]; lra).
  pose proof (Rabs_le_inv _ _ b1). pose proof (Rabs_le_inv _ _ b2). pose proof (Rabs_le_inv _ _ e5'). pose proof (Rabs_le_inv _ _ e6'). pose proof (Rabs_le_inv _ _ e3).
  destruct (fsub_near c042 (fmul fhalf a1) (42 / 100) (5 / 10 * t1) u (/ 2 * d + 9 * u) 1) as [f7 e7]; auto; try (apply Rabs_le; lra). pose proof (Rabs_le_inv _ _ e7).
  destruct (fadd_near (fsub c042 (fmul fhalf a1)) (fmul c008 a2) (42 / 100 - 5 / 10 * t1) (8 / 100 * t2) (u * 1 + (u + (/ 2 * d + 9 * u))) (/ 10 * d + 4 * u) (11 / 10)) as [f8 e8]; auto; try (apply Rabs_le; lra).
  split; [exact f8|]. eapply Rle_trans; [exact e8|]. lra.
Qed.

Lemma ratio_near (y : f64) : finite y -> real y <> 0 -> Rabs (real y) <= IZR (2 ^ 40) -> finite (fdiv (fsin y) y) /\ Rabs (real (fdiv (fsin y) y) - sin (real y) / real y) <= d + 11 / 10 * u.
Proof.
  intros fy hy hb. destruct (libm y fy hb) as (_ & _ & fs & es). pose proof u_tiny. pose proof u_pos. assert (hp : 0 < Rabs (real y)) by (apply Rabs_pos_lt; exact hy).
  assert (h1 : Rabs (real (fsin y) / real y - sin (real y) / real y) <= d).
  { replace (real (fsin y) / real y - sin (real y) / real y) with ((real (fsin y) - sin (real y)) * / real y) by (field; exact hy). rewrite Rabs_mult, Rabs_inv. apply Rmult_le_reg_r with (Rabs (real y)); [exact hp|].
    rewrite Rmult_assoc, Rinv_l, Rmult_1_r by lra. eapply Rle_trans; [exact es|]. apply Rmult_le_compat_l; [lra|]. apply Rmin_r. }
  pose proof (near_bound _ _ _ _ h1 (sinr_le _ hy)) as h2. destruct (fdiv_near (fsin y) y fs hy ltac:(lra)) as [f e]. split; [exact f|].
  eapply Rle_trans; [apply (via _ _ _ _ _ e h1)|]. assert (u * Rabs (real (fsin y) / real y) <= u * (1 + d)) by (apply Rmult_le_compat_l; lra). assert (d * u <= / 1000000 * u) by (apply Rmult_le_compat_r; lra). lra.
Qed.
Lemma tiny_400 : 0 < B (-400) <= u / 1000000 /\ eta <= u / 1000 * B (-400) /\ B (-400) <= / 1000000000000.
Proof.
  assert (h1 : B (-400) <= B (-53 + -20)) by (apply bpow_le; lia). rewrite bpow_plus in h1. change (B (-20)) with (/ 1048576) in h1. assert (h2 : eta <= B (-53 + -10 + -400)) by (apply bpow_le; lia). rewrite !bpow_plus in h2. change (B (-10)) with (/ 1024) in h2.
  assert (h3 : B (-400) <= B (-60)) by (apply bpow_le; lia). change (B (-60)) with (/ 1152921504606846976) in h3.
  rewrite u_val. pose proof (bpow_gt_0 radix2 (-53)). pose proof (bpow_gt_0 radix2 (-400)). splits; try lra. assert (0 < B (-53) * B (-400)) by (apply Rmult_lt_0_compat; lra). lra.
Qed.
Lemma sinc_near (x : f64) X s : finite x -> Rabs (real x - X) <= u * Rabs X + eta -> Rabs X <= B 36 -> is_sinc X s -> finite (sinc64 fsin x) /\ Rabs (real (sinc64 fsin x) - s) <= d + 7 * u.
Proof.
  intros fx hx hX hs. pose proof u_tiny as hu. pose proof u_pos as hu0. destruct tiny_400 as (t1 & t2 & t3). pose proof eta_pos. pose proof eta_u. pose proof PI_range as hp. pose proof (Rabs_pos X) as hX0.
  assert (b36 : 8 * B 36 <= B 40) by (change 8 with (B 3); rewrite <- bpow_plus; apply bpow_le; lia). assert (one : 1 <= B 36) by (change 1 with (B 0); apply bpow_le; lia).
  assert (huX : u * Rabs X <= / 1000 * Rabs X) by (apply Rmult_le_compat_r; lra).
  pose proof (near_bound _ _ _ _ hx (Rle_refl _)) as hxx.
  assert (hx40 : Rabs (real x) <= B 40) by lra. destruct (pi_product x fx hx40) as (fy & ey & y1 & y2).
  assert (hy40 : Rabs (real (fmul m_pi x)) <= IZR (2 ^ 40)) by (rewrite IZR_pow2 by lia; lra).
  assert (hz : Beqb fzero x = true <-> real x = 0).
  { assert (h : Beqb fzero x = Req_bool 0 (real x)) by (unfold real; rewrite Beqb_correct; [reflexivity|reflexivity|exact fx]). rewrite h. destruct (Req_bool_spec 0 (real x)); split; intros; auto; congruence. }
  unfold sinc64. destruct (Rle_lt_dec (B (-400)) (Rabs X)) as [hl|hl].
  - assert (he : eta <= u / 1000 * Rabs X) by (eapply Rle_trans; [exact t2|]; apply Rmult_le_compat_l; lra).
    assert (h1 : Rabs (real x - X) <= 1001 / 1000 * (u * Rabs X)) by lra.
    destruct m_pi_ok as [_ ep]. assert (hpi : 31 / 10 <= real m_pi <= 3143 / 1000) by (apply Rabs_le_inv in ep; lra).
    set (y := real (fmul m_pi x)) in *.
    assert (hmx : Rabs (real m_pi * real x) <= 315 / 100 * Rabs X). { rewrite Rabs_mult, (Rabs_pos_eq (real m_pi)) by lra. assert (real m_pi * Rabs (real x) <= 3143 / 1000 * (1001 / 1000 * Rabs X)) by (apply Rmult_le_compat; try lra; [apply Rabs_pos|]; assert (u * Rabs X <= / 1000000 * Rabs X) by (apply Rmult_le_compat_r; lra); lra). lra. }
    assert (h2 : Rabs (y - real m_pi * real x) <= 316 / 100 * (u * Rabs X)). { eapply Rle_trans; [exact ey|]. assert (u * Rabs (real m_pi * real x) <= u * (315 / 100 * Rabs X)) by (apply Rmult_le_compat_l; lra). lra. }
    assert (h3 : Rabs (real m_pi * real x - real m_pi * X) <= 3147 / 1000 * (u * Rabs X)).
    { replace (real m_pi * real x - real m_pi * X) with (real m_pi * (real x - X)) by ring. rewrite Rabs_mult, (Rabs_pos_eq (real m_pi)) by lra. eapply Rle_trans; [apply Rmult_le_compat; [lra|apply Rabs_pos|apply hpi|exact h1]|]. assert (0 <= u * Rabs X) by (apply Rmult_le_pos; lra). lra. }
    assert (h4 : Rabs (real m_pi * X - PI * X) <= 5 / 4 * (u * Rabs X)). { replace (real m_pi * X - PI * X) with (- (PI - real m_pi) * X) by ring. rewrite Rabs_mult, Rabs_Ropp. rewrite <- Rmult_assoc. apply Rmult_le_compat_r; [lra|exact ep]. }
    pose proof (via _ _ _ _ _ (via _ _ _ _ _ h2 h3) h4) as h5. assert (hXp : 0 < Rabs X) by lra. assert (hXn : X <> 0) by (intros z; rewrite z, Rabs_R0 in hXp; lra).
    assert (hyn : y <> 0). { intros z. rewrite z in y1. rewrite Rabs_R0 in y1. pose proof (Rabs_pos (real x)). assert (k : Rabs (X - real x) <= 1001 / 1000 * (u * Rabs X)) by (rewrite Rabs_minus_sym; exact h1). pose proof (near_bound _ _ _ 0 k ltac:(lra)). lra. }
    destruct (Beqb fzero x) eqn:eb.
    { exfalso. pose proof (proj1 hz eq_refl) as ez. apply hyn. destruct m_pi_ok as [fp _]. unfold y. rewrite (proj2 (fmul_fin m_pi x fp fx ltac:(rewrite ez, Rmult_0_r, Rabs_R0; apply bpow_ge_0))). rewrite ez, Rmult_0_r. apply round_0. typeclasses eauto. }
    destruct (ratio_near _ fy hyn hy40) as [fr er]. split; [exact fr|]. fold y in er. rewrite (proj2 hs hXn).
    assert (hPX : PI * X <> 0) by (intros z; apply Rmult_integral in z; lra). pose proof (sinr_close _ _ hPX hyn) as h6.
    assert (h7 : Rabs (y - PI * X) / Rabs (PI * X) <= 25 / 10 * u).
    { rewrite Rabs_mult, (Rabs_pos_eq PI) by lra. apply Rmult_le_reg_r with (PI * Rabs X); [apply Rmult_lt_0_compat; lra|]. unfold Rdiv. rewrite Rmult_assoc, Rinv_l, Rmult_1_r by (apply Rgt_not_eq, Rmult_lt_0_compat; lra).
      eapply Rle_trans; [exact h5|]. replace (25 * / 10 * u * (PI * Rabs X)) with (25 / 10 * PI * (u * Rabs X)) by field. assert (0 <= u * Rabs X) by (apply Rmult_le_pos; lra). replace (316 / 100 * (u * Rabs X) + 3147 / 1000 * (u * Rabs X) + 5 / 4 * (u * Rabs X)) with ((316 / 100 + 3147 / 1000 + 5 / 4) * (u * Rabs X)) by field. apply Rmult_le_compat_r; lra. }
    rewrite Rabs_minus_sym in h6. eapply Rle_trans; [apply (via _ _ _ _ _ er h6)|]. lra.
  - assert (hs1 : Rabs (1 - s) <= u / 1000000) by (rewrite Rabs_minus_sym; eapply Rle_trans; [apply is_sinc_tiny with (X := X); [lra|exact hs]|]; lra).
    destruct (Beqb fzero x) eqn:eb.
    + destruct (f_of_Z_exact 1) as [f1 e1]; [reflexivity|]. split; [exact f1|]. rewrite e1. lra.
    + assert (hxn : real x <> 0) by (intros z; pose proof (proj2 hz z); congruence). assert (hxp : 0 < Rabs (real x)) by (apply Rabs_pos_lt; exact hxn).
      assert (hyn : real (fmul m_pi x) <> 0) by (intros z; rewrite z, Rabs_R0 in y1; lra).
      destruct (ratio_near _ fy hyn hy40) as [fr er]. split; [exact fr|]. set (y := real (fmul m_pi x)) in *.
      assert (heta : eta <= B (-400)) by (apply bpow_le; lia). assert (hys : Rabs y <= 16 * B (-400)) by lra.
      assert (h1 : Rabs (sin y / y - 1) <= u / 1000).
      { eapply Rle_trans; [apply sinr_one; [exact hyn|lra]|]. replace (y * y) with (Rabs y * Rabs y) by (rewrite <- Rabs_mult; apply Rabs_pos_eq; nra). pose proof (Rabs_pos y). assert (Rabs y * Rabs y <= 1 * (16 * B (-400))) by (apply Rmult_le_compat; lra). lra. }
      eapply Rle_trans; [apply (via _ _ _ _ _ (via _ _ _ _ _ er h1) hs1)|]. lra.
Qed.
End Ker.
