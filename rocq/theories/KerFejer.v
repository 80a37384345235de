(** Sums of kernels are positive for all cutoffs: the sums of sin (k x) / k are positive between 0 and pi (the inequality of Fejér and Jackson). *)
From Coq Require Import Reals Lra.
From Verif Require Import Base KerSpec KerModel KerProofs Ker2Proofs Ker3Proofs.
From Coq Require Import Lia.
Open Scope R_scope.

(** sin x + sin (2 x) / 2 + .. + sin (n x) / n and its derivative *)
Definition sines (n : nat) (x : R) : R := rsumf n (fun k => sin (INR (S k) * x) / INR (S k)).
Definition cosines (n : nat) (x : R) : R := rsumf n (fun k => cos (INR (S k) * x)).
Lemma INR_S_pos k : 0 < INR (S k). Proof. apply lt_0_INR. lia. Qed.
Lemma sine_deriv a x : 0 < a -> derivable_pt_lim (fun x => sin (a * x) / a) x (cos (a * x)).
Proof.
  intros ha. apply (derivable_pt_lim_ext (fun x => / a * sin (a * x))); [intros; field; lra|].
  replace (cos (a * x)) with (/ a * (cos (a * x) * a)) by (field; lra).
  apply (derivable_pt_lim_scal (fun x => sin (a * x)) (/ a) x).
  apply (derivable_pt_lim_comp (fun x => a * x) sin x); [|apply derivable_pt_lim_sin].
  pose proof (derivable_pt_lim_scal (fun x => x) a x 1 (derivable_pt_lim_id x)) as d. rewrite Rmult_1_r in d. exact d.
Qed.
Lemma sines_deriv n x : derivable_pt_lim (sines n) x (cosines n x).
Proof.
  induction n as [|n IH].
  - apply (derivable_pt_lim_const 0 x).
  - apply (derivable_pt_lim_plus (sines n) (fun x => sin (INR (S n) * x) / INR (S n)) x); [exact IH|]. apply sine_deriv, INR_S_pos.
Qed.
Lemma cosines_closed n x : 2 * sin (x / 2) * cosines n x = sin (INR n * x + x / 2) - sin (x / 2).
Proof.
  induction n as [|n IH].
  - cbn. replace (0 * x + x / 2) with (x / 2) by ring. ring.
  - unfold cosines in *. cbn [rsumf]. rewrite Rmult_plus_distr_l, IH.
    replace (INR n * x + x / 2) with (INR (S n) * x - x / 2) by (rewrite S_INR; field). rewrite sin_minus, sin_plus. ring.
Qed.
Lemma sines_0 n : sines n 0 = 0.
Proof. apply rsumf_zero_in. intros i _. rewrite Rmult_0_r, sin_0. unfold Rdiv. ring. Qed.
Lemma sin_nat_PI n : sin (INR n * PI) = 0.
Proof. apply sin_eq_0_1. exists (Z.of_nat n). rewrite <- INR_IZR_INZ. reflexivity. Qed.
Lemma sines_PI n : sines n PI = 0.
Proof. apply rsumf_zero_in. intros i _. rewrite sin_nat_PI. unfold Rdiv. ring. Qed.
Lemma sines_deriv_pt n x : derivable_pt (sines n) x.
Proof. exists (cosines n x). apply sines_deriv. Qed.
(** where the derivative vanishes the last term is not negative *)
Lemma last_nonneg n x : 0 < x < PI -> cosines n x = 0 -> 0 <= sin (INR n * x).
Proof.
  intros hx h. pose proof (cosines_closed n x) as c. rewrite h, Rmult_0_r in c.
  assert (es : sin (INR n * x + x / 2) = sin (x / 2)) by lra.
  replace (INR n * x) with ((INR n * x + x / 2) - x / 2) by ring. rewrite sin_minus, es.
  assert (s0 : 0 < sin (x / 2)) by (apply sin_gt_0; lra). assert (c0 : 0 < cos (x / 2)) by (apply cos_gt_0; lra).
  pose proof (sin2_cos2 (INR n * x + x / 2)) as p1. pose proof (sin2_cos2 (x / 2)) as p2. rewrite es in p1. unfold Rsqr in *.
  set (a := cos (INR n * x + x / 2)) in *. set (b := cos (x / 2)) in *. assert (ab : a * a = b * b) by lra. assert (a <= b) by nra. nra.
Qed.
Lemma sines_pos n x : 0 < x < PI -> 0 < sines (S n) x.
Proof.
  revert x. induction n as [|n IH]; intros x hx.
  - unfold sines. cbn [rsumf INR]. rewrite Rmult_1_l. pose proof (sin_gt_0 x ltac:(lra) ltac:(lra)). lra.
  - destruct (Rlt_or_le 0 (sines (S (S n)) x)) as [h|h]; [exact h|exfalso]. set (f := sines (S (S n))) in *. pose proof PI_RGT_0 as hp.
    destruct (continuity_ab_min f 0 PI) as (m & hm & hb); [lra|intros c _; apply derivable_continuous_pt, sines_deriv_pt|].
    (* an inner minimum *)
    assert (w : exists m, 0 < m < PI /\ f m <= 0 /\ forall c, 0 <= c <= PI -> f m <= f c).
    { destruct (Req_dec m 0) as [e|n0]; [|destruct (Req_dec m PI) as [e|n1]].
      - exists x. splits; [lra|lra|exact h|]. intros c hc. specialize (hm c hc). rewrite e in hm. unfold f at 1 in hm. rewrite sines_0 in hm. lra.
      - exists x. splits; [lra|lra|exact h|]. intros c hc. specialize (hm c hc). rewrite e in hm. unfold f at 1 in hm. rewrite sines_PI in hm. lra.
      - exists m. splits; [lra|lra| |exact hm]. specialize (hm x ltac:(lra)). lra. }
    clear m hm hb. destruct w as (m & hm & hf & hmin).
    pose proof (deriv_minimum f 0 PI m (sines_deriv_pt (S (S n)) m) ltac:(lra) ltac:(lra)) as d.
    assert (d0 : derive_pt f m (sines_deriv_pt (S (S n)) m) = 0) by (apply d; intros y h1 h2; apply hmin; lra).
    assert (c0 : cosines (S (S n)) m = 0). { rewrite <- d0. symmetry. apply derive_pt_eq_0. apply sines_deriv. }
    pose proof (last_nonneg _ m hm c0) as l. specialize (IH m hm).
    assert (e : f m = sines (S n) m + sin (INR (S (S n)) * m) / INR (S (S n))) by reflexivity.
    assert (0 <= sin (INR (S (S n)) * m) / INR (S (S n))). { apply Rmult_le_pos; [exact l|]. apply Rlt_le, Rinv_0_lt_compat, INR_S_pos. }
    lra.
Qed.
Lemma sines_nonneg n x : 0 <= x <= PI -> 0 <= sines n x.
Proof.
  intros hx. destruct n as [|n]; [cbn; lra|]. destruct (Req_dec x 0) as [->|h0]; [rewrite sines_0; lra|]. destruct (Req_dec x PI) as [->|h1]; [rewrite sines_PI; lra|].
  apply Rlt_le, sines_pos. lra.
Qed.
(** weights that decrease keep sums with partial sums that are not negative *)
Lemma abel n v a : (forall k, (S k < n)%nat -> v (S k) <= v k) -> (forall k, (k < n)%nat -> 0 <= v k) -> (forall k, 0 <= rsumf k a) ->
  match n with O => True | S m => v m * rsumf n a <= rsumf n (fun k => v k * a k) end.
Proof.
  induction n as [|n IH]; intros hd hv ha; [trivial|]. cbn [rsumf]. destruct n as [|n]; [cbn; lra|].
  assert (i : v n * rsumf (S n) a <= rsumf (S n) (fun k => v k * a k)). { apply IH; [intros; apply hd; lia|intros; apply hv; lia|exact ha]. }
  specialize (hd n ltac:(lia)). pose proof (ha (S n)) as p. nra.
Qed.
Lemma abel_nonneg n v a : (forall k, (S k < n)%nat -> v (S k) <= v k) -> (forall k, (k < n)%nat -> 0 <= v k) -> (forall k, 0 <= rsumf k a) -> 0 <= rsumf n (fun k => v k * a k).
Proof.
  intros hd hv ha. pose proof (abel n v a hd hv ha) as h. destruct n as [|n]; [cbn; lra|]. pose proof (ha (S n)). specialize (hv n ltac:(lia)). nra.
Qed.

(** ** The window *)
(** the window relative to the middle *)
Definition half_window (m k : nat) : R := 34 / 100 + 5 / 10 * cos (PI * (INR k / INR m)) + 16 / 100 * (cos (PI * (INR k / INR m)) * cos (PI * (INR k / INR m))).
Lemma half_window_decreases m k : (S k <= m)%nat -> half_window m (S k) <= half_window m k.
Proof.
  intros h. assert (hm : 0 < INR m) by (apply lt_0_INR; lia). pose proof PI_RGT_0 as hp. unfold half_window.
  assert (q : 0 <= INR k / INR m < INR (S k) / INR m /\ INR (S k) / INR m <= 1).
  { splits.
    - apply Rmult_le_pos; [apply pos_INR|apply Rlt_le, Rinv_0_lt_compat, hm].
    - apply Rmult_lt_compat_r; [apply Rinv_0_lt_compat, hm|apply lt_INR; lia].
    - apply (Rmult_le_reg_r (INR m)); [exact hm|]. unfold Rdiv. rewrite Rmult_assoc, Rinv_l, Rmult_1_l, Rmult_1_r by lra. apply le_INR. exact h. }
  set (s := INR k / INR m) in *. set (t := INR (S k) / INR m) in *. destruct q as ((q1 & q2) & q3).
  assert (c : cos (PI * t) < cos (PI * s)) by (apply cos_decreasing_1; nra). pose proof (COS_bound (PI * s)) as b1. pose proof (COS_bound (PI * t)) as b2. nra.
Qed.
Lemma half_window_nonneg m k : 0 <= half_window m k.
Proof. unfold half_window. pose proof (COS_bound (PI * (INR k / INR m))) as b. set (c := cos _) in *. replace (34 / 100 + 5 / 10 * c + 16 / 100 * (c * c)) with ((1 + c) * (34 / 100 + 16 / 100 * c)) by field. apply Rmult_le_pos; lra. Qed.
Lemma window_middle m k : (0 < m)%nat ->
  42 / 100 - 5 / 10 * cos (2 * PI * (INR (m + k) / (INR (2 * m + 1) - 1))) + 8 / 100 * cos (4 * PI * (INR (m + k) / (INR (2 * m + 1) - 1))) = half_window m k.
Proof.
  intros hm. assert (h : 0 < INR m) by (apply lt_0_INR; exact hm). assert (Em : INR (2 * m + 1) = 2 * INR m + 1) by (rewrite plus_INR, mult_INR; cbn [INR]; lra).
  rewrite Em, plus_INR. unfold half_window. set (y := PI * (INR k / INR m)).
  replace (2 * PI * ((INR m + INR k) / (2 * INR m + 1 - 1))) with (y + PI) by (unfold y; field; lra).
  replace (4 * PI * ((INR m + INR k) / (2 * INR m + 1 - 1))) with (2 * (y + PI)) by (unfold y; field; lra).
  rewrite cos_2a_cos, neg_cos. field.
Qed.
Lemma is_sinc_even x s t : is_sinc x s -> is_sinc (- x) t -> s = t.
Proof.
  intros [a0 a1] [b0 b1]. destruct (Req_dec x 0) as [e|n].
  - rewrite a0, b0 by lra. reflexivity.
  - rewrite a1, b1 by lra. replace (PI * - x) with (- (PI * x)) by ring. rewrite sin_neg. pose proof PI_RGT_0. field. lra.
Qed.

(** the sum before scaling is at least one *)
Lemma range_gain fc len raw : 0 <= fc <= 1 / 2 -> Nat.odd len = true -> (1 < len)%nat -> raw_kernel fc len raw -> 1 <= gain raw.
Proof.
  intros Hf Ho Hl [L H]. unfold gain. rewrite L. apply Nat.odd_spec in Ho. destruct Ho as [m ->]. assert (hm : (0 < m)%nat) by lia.
  assert (Em : INR (2 * m + 1) = 2 * INR m + 1) by (rewrite plus_INR, mult_INR; cbn [INR]; lra).
  assert (hmr : 0 < INR m) by (apply lt_0_INR; exact hm).
  (* samples at and above the middle *)
  assert (up : forall k, (k <= m)%nat -> exists s, is_sinc (2 * fc * INR k) s /\ nth (m + k) raw 0 = half_window m k * s).
  { intros k hk. destruct (H (m + k)%nat ltac:(lia)) as (s & S & e). exists s. split.
    - replace (2 * fc * INR k) with (2 * fc * (INR (m + k) - (INR (2 * m + 1) - 1) / 2)); [exact S|]. rewrite Em, plus_INR. field.
    - rewrite e, window_middle by exact hm. reflexivity. }
  assert (down : forall k, (k <= m)%nat -> nth (m - k) raw 0 = nth (m + k) raw 0).
  { intros k hk. destruct (H (m + k)%nat ltac:(lia)) as (s & S & e). destruct (H (m - k)%nat ltac:(lia)) as (t & T & e'). rewrite e, e'.
    assert (st : t = s). { apply (is_sinc_even _ _ _ T). replace (- (2 * fc * (INR (m - k) - (INR (2 * m + 1) - 1) / 2))) with (2 * fc * (INR (m + k) - (INR (2 * m + 1) - 1) / 2)); [exact S|].
      rewrite Em, plus_INR, minus_INR by exact hk. field. }
    rewrite st. f_equal. rewrite Em, plus_INR, minus_INR by exact hk.
    replace (2 * PI * ((INR m - INR k) / (2 * INR m + 1 - 1))) with (- (2 * PI * ((INR m + INR k) / (2 * INR m + 1 - 1))) + 2 * PI) by (field; lra).
    replace (4 * PI * ((INR m - INR k) / (2 * INR m + 1 - 1))) with (- (4 * PI * ((INR m + INR k) / (2 * INR m + 1 - 1))) + 2 * PI + 2 * PI) by (field; lra).
    rewrite !cos_plus, !sin_plus, !cos_2PI, !sin_2PI, !cos_neg. ring. }
  replace (2 * m + 1)%nat with (m + (1 + m))%nat by lia. rewrite rsumf_app, rsumf_app. cbn [rsumf].
  rewrite rsumf_rev. rewrite (rsumf_ext m _ (fun k => nth (m + S k) raw 0)).
  2: { intros i hi. replace (m - 1 - i)%nat with (m - S i)%nat by lia. apply down. lia. }
  rewrite (rsumf_ext m (fun i => nth (m + (1 + i)) raw 0) (fun k => nth (m + S k) raw 0)) by (intros; reflexivity).
  destruct (up 0%nat ltac:(lia)) as (s0 & S0 & e0). rewrite e0.
  assert (s1 : s0 = 1). { apply S0. cbn. ring. }
  assert (w0 : half_window m 0 = 1). { unfold half_window. cbn [INR]. replace (PI * (0 / INR m)) with 0 by (field; lra). rewrite cos_0. lra. }
  rewrite s1, w0. enough (0 <= rsumf m (fun k => nth (m + S k) raw 0)) by lra.
  destruct (Req_dec fc 0) as [z|nz].
  - rewrite (rsumf_ext m _ (fun k => half_window m (S k) * 1)).
    + apply (abel_nonneg m (fun k => half_window m (S k)) (fun _ => 1)); [intros k hk; apply half_window_decreases; lia|intros; apply half_window_nonneg|].
      intros k. induction k; cbn [rsumf]; lra.
    + intros i hi. destruct (up (S i) ltac:(lia)) as (s & S & e). rewrite e. f_equal. apply S. rewrite z. ring.
  - pose proof PI_RGT_0 as hp. set (x := 2 * PI * fc). assert (hx : 0 < x <= PI) by (unfold x; nra).
    rewrite (rsumf_ext m _ (fun k => / x * (half_window m (S k) * (sin (INR (S k) * x) / INR (S k))))).
    + rewrite rsumf_scal. apply Rmult_le_pos; [apply Rlt_le, Rinv_0_lt_compat; lra|].
      apply (abel_nonneg m (fun k => half_window m (S k)) (fun k => sin (INR (S k) * x) / INR (S k))); [intros k hk; apply half_window_decreases; lia|intros; apply half_window_nonneg|].
      intros k. apply (sines_nonneg k x). lra.
    + intros i hi. destruct (up (S i) ltac:(lia)) as (s & S & e). rewrite e. pose proof (INR_S_pos i) as hi0. destruct S as [_ S]. rewrite S by nra.
      replace (PI * (2 * fc * INR (Datatypes.S i))) with (INR (Datatypes.S i) * x) by (unfold x; ring). field. split; lra.
Qed.
Lemma range_nonzero fc t len : 0 <= fc <= 1 / 2 -> 0 < t < 4 -> kernel_length t len -> forall raw, raw_kernel fc len raw -> gain raw <> 0.
Proof.
  intros hf ht (ho & hl & _) raw hr. assert (h1 : (1 < len)%nat).
  { destruct len as [|[|len]]; [discriminate| |lia]. cbn in hl. assert (4 / t > 1); [|lra]. apply Rmult_lt_reg_r with t; [lra|]. field_simplify; lra. }
  pose proof (range_gain fc len raw hf ho h1 hr). lra.
Qed.
Lemma range_defined junk fc t hp len : (forall n, length (junk n) = n) -> 0 < t < 4 -> kernel_length t len -> 4 / t <= 4294967295 -> 0 <= fc <= 1 / 2 ->
  exists h, lp_hp_ir junk fc t hp = Some h /\ (if hp then high_pass_kernel fc len h else low_pass_kernel fc len h).
Proof. intros hj ht hk h4 hf. apply (lp_hp_correct junk fc t hp len hj ht hk h4). exact (range_nonzero fc t len hf ht hk). Qed.
Lemma range_kernel junk fc t hp len : (forall n, length (junk n) = n) -> 0 < t < 4 -> kernel_length t len -> 4 / t <= 4294967295 -> 0 <= fc <= 1 / 2 ->
  (forall raw, raw_kernel fc len raw -> 1 <= gain raw) /\
  exists h, lp_hp_ir junk fc t hp = Some h /\ (if hp then high_pass_kernel fc len h else low_pass_kernel fc len h).
Proof.
  intros hj ht hk h4 hf. split; [|apply range_defined; assumption]. destruct hk as (ho & hl & _). intros raw hr. apply (range_gain fc len raw hf ho); [|exact hr].
  destruct len as [|[|len]]; [discriminate| |lia]. cbn in hl. assert (4 / t > 1); [|lra]. apply Rmult_lt_reg_r with t; [lra|]. field_simplify; lra.
Qed.
Lemma range_bands junk cl ch tl th : (forall n, length (junk n) = n) -> 0 < cl <= 1 / 2 -> 0 <= ch < 1 / 2 -> 0 < tl < 4 -> 0 < th < 4 -> 4 / tl <= 4294967295 -> 4 / th <= 4294967295 ->
  exists len_l len_h reject pass lp hp, kernel_length tl len_l /\ kernel_length th len_h /\
    bp_br_ir junk cl ch tl th true = Some reject /\ bp_br_ir junk cl ch tl th false = Some pass /\
    (low_pass_kernel cl len_l lp /\ high_pass_kernel ch len_h hp /\ (if (len_h <? len_l)%nat then centered_sum lp hp reject else centered_sum hp lp reject) /\ gain reject = 1 /\ symmetric reject) /\
    exists lp' hp', high_pass_kernel cl len_l hp' /\ low_pass_kernel ch len_h lp' /\ length pass = (len_l + len_h - 1)%nat /\ gain pass = 0 /\ symmetric pass /\
      forall w, response_re pass w = response_re lp' w * response_re hp' w - response_im lp' w * response_im hp' w /\
                response_im pass w = response_re lp' w * response_im hp' w + response_im lp' w * response_re hp' w.
Proof.
  intros hj h1 h2 h3 h4 h5 h6.
  destruct (ir_length_correct tl ltac:(lra) h5) as (ll & _ & kl & _). destruct (ir_length_correct th ltac:(lra) h6) as (lh & _ & kh & _).
  destruct (range_defined junk cl tl false ll hj h3 kl h5 ltac:(lra)) as (lp & e1 & p1). destruct (range_defined junk ch th true lh hj h4 kh h6 ltac:(lra)) as (hp & e2 & p2).
  destruct (range_defined junk cl tl true ll hj h3 kl h5 ltac:(lra)) as (hp' & e3 & p3). destruct (range_defined junk ch th false lh hj h4 kh h6 ltac:(lra)) as (lp' & e4 & p4).
  destruct (band_reject_inside junk cl ch tl th lp hp hj ltac:(lra) ltac:(lra) e1 e2) as (rj & er & r1 & r2 & r3 & r4 & r5).
  destruct (band_pass_inside junk cl ch tl th lp' hp' hj ltac:(lra) ltac:(lra) e3 e4) as (ps & ep & s1 & s2 & s3 & s4 & s5).
  assert (l1 : length lp = ll) by apply p1. assert (l2 : length hp = lh) by apply p2. assert (l3 : length hp' = ll) by apply p3. assert (l4 : length lp' = lh) by apply p4.
  rewrite l1, l2 in r1. exists ll, lh, rj, ps, lp, hp. splits; auto. exists lp', hp'. splits; auto. lia.
Qed.
