(** Sums of kernels with a low cutoff are positive. *)
From Coq Require Import Reals Lra.
From Verif Require Import Base KerSpec KerModel KerProofs Ker2Proofs.
From Coq Require Import Lia.
Open Scope R_scope.

Lemma window_nonneg x : 0 <= 42 / 100 - 5 / 10 * cos x + 8 / 100 * cos (2 * x).
Proof.
  rewrite cos_2a_cos. pose proof (COS_bound x) as [H1 H2]. set (c := cos x) in *.
  replace (42 / 100 - 5 / 10 * c + 8 / 100 * (2 * c * c - 1)) with ((1 - c) * (34 / 100 - 16 / 100 * c)) by field.
  apply Rmult_le_pos; lra.
Qed.

Lemma sinc_nonneg x s : is_sinc x s -> -1 <= x <= 1 -> 0 <= s.
Proof.
  intros [H0 H1] Hx. destruct (Req_dec x 0) as [->|Hn]; [rewrite H0; lra|]. rewrite (H1 Hn). pose proof PI_RGT_0 as HP.
  destruct (Rlt_dec 0 x) as [Hp|Hp].
  - apply Rmult_le_pos; [apply sin_ge_0; nra|]. apply Rlt_le, Rinv_0_lt_compat. nra.
  - replace (sin (PI * x) / (PI * x)) with (sin (PI * - x) / (PI * - x)).
    2: { replace (PI * - x) with (- (PI * x)) by ring. rewrite sin_neg. field. split; lra. }
    apply Rmult_le_pos; [apply sin_ge_0; nra|]. apply Rlt_le, Rinv_0_lt_compat. nra.
Qed.

Lemma rsumf_term n f k : (k < n)%nat -> (forall i, (i < n)%nat -> 0 <= f i) -> f k <= rsumf n f.
Proof.
  induction n as [|n IH]; intros Hk Hf; [lia|]. cbn [rsumf].
  assert (Hs : 0 <= rsumf n f).
  { clear IH Hk. assert (Hf' : forall i, (i < n)%nat -> 0 <= f i) by (intros; apply Hf; lia). clear Hf. induction n; cbn [rsumf]; [lra|].
    assert (0 <= f n) by (apply Hf'; lia). assert (0 <= rsumf n f) by (apply IHn; intros; apply Hf'; lia). lra. }
  destruct (Nat.eq_dec k n) as [->|Hn]; [lra|]. assert (f k <= rsumf n f) by (apply IH; [lia|intros; apply Hf; lia]). assert (0 <= f n) by (apply Hf; lia). lra.
Qed.

(** the sum is at least the sample in the middle, which is one *)
Lemma low_cutoff_gain fc len raw : 0 <= fc -> Nat.odd len = true -> (1 < len)%nat -> fc * (INR len - 1) <= 1 -> raw_kernel fc len raw -> 1 <= gain raw.
Proof.
  intros Hf Ho Hl Hc [L H]. unfold gain. rewrite L. apply Nat.odd_spec in Ho. destruct Ho as [m ->].
  assert (Em : INR (2 * m + 1) = 2 * INR m + 1) by (rewrite plus_INR, mult_INR; cbn [INR]; lra).
  assert (Hm : 1 <= INR m) by (replace 1 with (INR 1) by reflexivity; apply le_INR; lia).
  assert (Hmid : nth m raw 0 = 1).
  { destruct (H m ltac:(lia)) as (s & [S0 _] & ->). rewrite Em in *. rewrite S0 by (replace (INR m - (2 * INR m + 1 - 1) / 2) with 0 by field; ring).
    replace (2 * PI * (INR m / (2 * INR m + 1 - 1))) with PI by (field; lra). replace (4 * PI * (INR m / (2 * INR m + 1 - 1))) with (2 * PI) by (field; lra).
    rewrite cos_PI, cos_2PI. lra. }
  rewrite <- Hmid at 1. apply (rsumf_term (2 * m + 1) (fun k => nth k raw 0)); [lia|]. intros i Hi.
  destruct (H i Hi) as (s & S & ->). rewrite Em in *. apply Rmult_le_pos.
  - replace (4 * PI * (INR i / (2 * INR m + 1 - 1))) with (2 * (2 * PI * (INR i / (2 * INR m + 1 - 1)))) by ring. apply window_nonneg.
  - apply (sinc_nonneg _ _ S). assert (Hi2 : INR i <= 2 * INR m) by (replace (2 * INR m) with (INR (2 * m)) by (rewrite mult_INR; reflexivity); apply le_INR; lia).
    pose proof (pos_INR i) as Hi0. replace (INR i - (2 * INR m + 1 - 1) / 2) with (INR i - INR m) by field. replace (2 * INR m + 1 - 1) with (2 * INR m) in Hc by ring.
    split; nra.
Qed.

Lemma low_cutoff_defined junk fc t hp len : (forall n, length (junk n) = n) -> 0 < t < 4 -> kernel_length t len -> 4 / t <= 4294967295 ->
  0 <= fc -> fc * (INR len - 1) <= 1 ->
  exists h, lp_hp_ir junk fc t hp = Some h /\ (if hp then high_pass_kernel fc len h else low_pass_kernel fc len h).
Proof.
  intros hj ht hk h4 h0 hc. apply (lp_hp_correct junk fc t hp len hj ht hk h4). intros raw hr.
  destruct hk as (ho & hl & _). assert (h1 : (1 < len)%nat).
  { destruct len as [|[|len]]; [discriminate| |lia]. cbn in hl. assert (4 / t > 1); [|lra]. apply Rmult_lt_reg_r with t; [lra|]. field_simplify; lra. }
  pose proof (low_cutoff_gain fc len raw h0 ho h1 hc hr). lra.
Qed.
