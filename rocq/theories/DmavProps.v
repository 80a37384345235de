(** C113: the moving average with doubles *)
From Coq Require Import ZArith Reals List Lia Lra.
From Flocq Require Import Core BinarySingleNaN.
From Verif Require Import Base DblModel DblSpec DblProofs Dbl2Proofs MavModel DmavModel DmavSpec DmavProofs.
Import ListNotations.
Open Scope R_scope.

(** The error of output [i] grows with [i] and is relative to the greatest magnitude [A] in the whole input, not in the window *)
Theorem c113_error A input prev next radius out : 0 <= A -> (2 * INR radius + 3) * A <= bpow radix2 1000 ->
  (2 * radius + 1 <= length input)%nat -> (Z.of_nat (length input) < 2 ^ 32)%Z -> (length input <= length out)%nat ->
  (forall p, prev = Some p -> length p = length input /\ within A p) -> (forall p, next = Some p -> (radius <= length p)%nat /\ within A p) -> within A input ->
  exists out', moving_average64 input prev next radius out = Some out' /\ length out' = length out /\
    forall i, (i < length input)%nat -> exists x, nth_error out' i = Some x /\ finite x /\
      Rabs (real x - window_mean (continued input prev next) radius i) <= (24 * INR (i + radius) + 4) * unit_roundoff * A + bpow radix2 (-1022).
Proof. exact (average_error A input prev next radius out). Qed.
Print Assumptions c113_error.
(** five samples, the last radius sample of the next block, all of magnitude at most 1 *)
Example c113_error_case :
  exists out', moving_average64 [f_of_Z 1; fzero; f_of_Z (-1); fzero; f_of_Z 1] None (Some [f_of_Z 1]) 1 (repeat fzero 5) = Some out' /\
    exists x, nth_error out' 1 = Some x /\ Rabs (real x - 0) <= 52 * unit_roundoff + bpow radix2 (-1022).
Proof.
  assert (h : forall z, (Z.abs z <= 1)%Z -> finite (f_of_Z z) /\ Rabs (real (f_of_Z z)) <= 1).
  { intros z hz. destruct (f_of_Z_exact z ltac:(lia)) as [a b]. split; [exact a|]. rewrite b, <- abs_IZR. apply IZR_le. exact hz. }
  assert (z0 : finite fzero /\ Rabs (real fzero) <= 1) by (split; [reflexivity|change (real fzero) with 0; rewrite Rabs_R0; lra]).
  assert (b5 : 5 <= bpow radix2 1000). { apply Rle_trans with (bpow radix2 3); [change (bpow radix2 3) with 8; lra|apply bpow_le; lia]. }
  destruct (c113_error 1 [f_of_Z 1; fzero; f_of_Z (-1); fzero; f_of_Z 1] None (Some [f_of_Z 1]) 1 (repeat fzero 5)) as (o & e & _ & ho).
  - lra.
  - cbn [INR]. lra.
  - cbn; lia.
  - reflexivity.
  - cbn; lia.
  - discriminate.
  - intros p hp. assert (ep : p = [f_of_Z 1]) by congruence. rewrite ep. split; [cbn [length]; lia|]. constructor; [apply (h 1%Z); lia|constructor].
  - repeat (constructor; [first [exact z0|apply (h 1%Z); lia|apply (h (-1)%Z); lia]|]). constructor.
  - exists o. split; [exact e|]. destruct (ho 1%nat ltac:(cbn; lia)) as (x & hx & _ & hb). exists x. split; [exact hx|].
    assert (em : window_mean (continued [f_of_Z 1; fzero; f_of_Z (-1); fzero; f_of_Z 1] None (Some [f_of_Z 1])) 1 1 = 0).
    { unfold window_mean. cbn [Nat.mul Nat.add sum_from]. change (Z.of_nat 1 - Z.of_nat 1)%Z with 0%Z. change (0 + 1)%Z with 1%Z. change (1 + 1)%Z with 2%Z.
      change (continued [f_of_Z 1; fzero; f_of_Z (-1); fzero; f_of_Z 1] None (Some [f_of_Z 1]) 0) with (real (f_of_Z 1)).
      change (continued [f_of_Z 1; fzero; f_of_Z (-1); fzero; f_of_Z 1] None (Some [f_of_Z 1]) 1) with 0.
      change (continued [f_of_Z 1; fzero; f_of_Z (-1); fzero; f_of_Z 1] None (Some [f_of_Z 1]) 2) with (real (f_of_Z (-1))).
      rewrite (proj2 (f_of_Z_exact 1 ltac:(lia))), (proj2 (f_of_Z_exact (-1) ltac:(lia))). unfold Rdiv. ring. }
    rewrite em in hb. eapply Rle_trans; [exact hb|]. cbn [INR Nat.add]. pose proof u_pos. lra.
Qed.

(** What does not hold: that the output is near the mean of the samples in its window. After one loud sample 2^k all outputs are zero as long as the samples are equal to a number below 2^(k - 53), although each such mean is that number. *)
Theorem c113_window_lost k big c m out : (-900 <= k <= 1000)%Z -> finite big -> real big = bpow radix2 k -> finite c -> 0 < real c < bpow radix2 (k - 53) ->
  (2 <= m)%nat -> (Z.of_nat m + 2 < 2 ^ 32)%Z -> (m + 2 <= length out)%nat ->
  let input := fzero :: big :: repeat c m in
  exists out', moving_average64 input None None 1 out = Some out' /\
    forall i, (3 <= i < m + 1)%nat -> window_mean (continued input None None) 1 i = real c /\ exists x, nth_error out' i = Some x /\ finite x /\ real x = 0.
Proof. intros h1 h2 h3 h4 h5. exact (loud_average k big c m h1 h2 h3 h4 h5 out). Qed.
Print Assumptions c113_window_lost.
(** 2^60 and then ones: the fifth output is 0 instead of 1 *)
Example c113_window_case : exists out', moving_average64 (fzero :: fmake 1 60 :: repeat (f_of_Z 1) 6) None None 1 (repeat fzero 8) = Some out' /\
  exists x, nth_error out' 4 = Some x /\ finite x /\ real x = 0.
Proof.
  destruct (fmake_exact 1 60 ltac:(lia) ltac:(lia)) as [a b]. destruct (f_of_Z_exact 1 ltac:(lia)) as [c d].
  destruct (c113_window_lost 60 (fmake 1 60) (f_of_Z 1) 6 (repeat fzero 8)) as (o & e & h).
  - lia.
  - exact a.
  - rewrite b. apply Rmult_1_l.
  - exact c.
  - rewrite d. change (bpow radix2 (60 - 53)) with 128. lra.
  - lia.
  - reflexivity.
  - cbn; lia.
  - exists o. split; [exact e|]. apply h. lia.
Qed.
