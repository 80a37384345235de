From Coq Require Import Reals List Lra Lia Arith.
From Verif Require Import SineModel.
Import ListNotations.
Open Scope R_scope.

(** C74: for even sizes the table is one full period *)
Theorem c74_sine_period_even_partial :
  forall n : nat, (0 < n)%nat ->
  sine_period (2 * n) = Some (map (fun i => sin (2 * PI * INR i / INR (2 * n))) (seq 0 (2 * n))).
Proof.
  intros n Hn. unfold sine_period. destruct (Nat.eqb_spec (2 * n) 1); [lia|]. f_equal. apply map_ext. intro i. f_equal.
  rewrite (Nat.mul_comm 2 n), Nat.div_mul by lia. rewrite mult_INR. change (INR 2) with (1 + 1).
  assert (INR n <> 0) by (apply not_0_INR; lia). field. auto.
Qed.
Print Assumptions c74_sine_period_even_partial.
Example c74_instance : (0 < 2)%nat /\ sine_period 4 = Some (map (fun i => sin (2 * PI * INR i / INR 4)) [0;1;2;3]%nat).
Proof. split; [lia|]. exact (c74_sine_period_even_partial 2 ltac:(lia)). Qed.

(** C74: for odd sizes it is not, for none of them: the second sample differs *)
Theorem c74_sine_period_odd_refuted :
  forall k : nat, (0 < k)%nat -> exists l, sine_period (2 * k + 1) = Some l /\
  nth_error l 1 <> nth_error (map (fun i => sin (2 * PI * INR i / INR (2 * k + 1))) (seq 0 (2 * k + 1))) 1.
Proof.
  intros k Hk. unfold sine_period. destruct (Nat.eqb_spec (2 * k + 1) 1); [lia|]. eexists. split; [reflexivity|].
  assert (HALF : ((2 * k + 1) / 2 = k)%nat) by (symmetry; apply (Nat.div_unique _ 2 k 1); lia). rewrite HALF. clear HALF.
  rewrite !nth_error_map. destruct k as [|k]; [lia|]. replace (seq 0 (2 * S k + 1)) with (0%nat :: 1%nat :: seq 2 (2 * k + 1)) by (replace (2 * S k + 1)%nat with (S (S (2 * k + 1))) by lia; reflexivity).
  assert (IN : INR (2 * S k + 1) = (1 + 1) * (INR k + 1) + 1) by (rewrite plus_INR, mult_INR, (S_INR k); reflexivity).
  cbn [nth_error option_map]. rewrite IN, (S_INR k). clear IN. change (INR 1) with 1. intro H. apply (f_equal (fun o => match o with Some a => a | None => 0 end)) in H. cbv beta iota in H.
  pose proof PI_RGT_0 as P0. pose proof (pos_INR k) as K0. remember (INR k) as x eqn:EX.
  assert (A : 0 < 2 * PI * 1 / ((1 + 1) * (x + 1) + 1) < PI).
  { split; [apply Rdiv_lt_0_compat; lra|]. apply Rmult_lt_reg_r with ((1 + 1) * (x + 1) + 1); [lra|]. unfold Rdiv. rewrite Rmult_assoc, Rinv_l by lra. nra. }
  destruct k as [|k].
  - (* three samples: the second is at half of the period *)
    change (INR 0) with 0 in EX. subst x. replace (1 * (PI / (0 + 1))) with PI in H by field. rewrite sin_PI in H.
    pose proof (sin_gt_0 _ (proj1 A) (proj2 A)). lra.
  - assert (X1 : 1 <= x) by (rewrite EX, S_INR; pose proof (pos_INR k); lra).
    assert (B : 1 * (PI / (x + 1)) <= PI / 2).
    { rewrite Rmult_1_l. apply Rmult_le_reg_r with ((x + 1) * 2); [lra|]. unfold Rdiv. replace (PI * / (x + 1) * ((x + 1) * 2)) with (PI * 2) by (field; lra). replace (PI * / 2 * ((x + 1) * 2)) with (PI * (x + 1)) by field. nra. }
    assert (C : 2 * PI * 1 / ((1 + 1) * (x + 1) + 1) < 1 * (PI / (x + 1))).
    { rewrite Rmult_1_l. apply Rmult_lt_reg_r with ((x + 1) * ((1 + 1) * (x + 1) + 1)); [nra|].
      replace (2 * PI * 1 / ((1 + 1) * (x + 1) + 1) * ((x + 1) * ((1 + 1) * (x + 1) + 1))) with (2 * PI * (x + 1)) by (field; lra).
      replace (PI / (x + 1) * ((x + 1) * ((1 + 1) * (x + 1) + 1))) with (PI * ((1 + 1) * (x + 1) + 1)) by (field; lra). nra. }
    pose proof (sin_increasing_1 (2 * PI * 1 / ((1 + 1) * (x + 1) + 1)) (1 * (PI / (x + 1)))). lra.
Qed.
Print Assumptions c74_sine_period_odd_refuted.
