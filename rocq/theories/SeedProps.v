(** Property C103: noise in parallel groups has the random numbers it has in sequential groups *)
From Coq Require Import Permutation.
From Verif Require Import Base RandModel SeedModel SeedSpec SeedProofs.

(** Holds if preparations do not overlap and start in the order of the list: every event has the numbers it has with sp_seq. If they do not overlap but are in another order,
    the same numbers are given to other events. Missing: preparations that overlap, and the same numbers in any order. *)
Theorem c103_noise_partial : forall n r,
  (exists s, run (one_by_one (seq 0 n)) (start r n) = Some s /\ all_have n (nth_noise r) s) /\
  (forall order, Permutation order (seq 0 n) -> exists s, run (one_by_one order) (start r n) = Some s /\
     global s = Nat.iter n (fun r => snd (random_u32 r)) r /\ forall k i, nth_error order k = Some i -> nth_error (events s) i = Some (Has (nth_noise r k))).
Proof. intros n r. split; [exact (list_order n r)|]. intros order. exact (in_turn n order r). Qed.
Print Assumptions c103_noise_partial.
Example c103_partial_met : Permutation [2; 0; 1] (seq 0 3).
Proof. simpl. apply perm_trans with [0; 2; 1]; [apply perm_swap|]. apply perm_skip. apply perm_swap. Qed.

(** In any schedule, also with preparations that overlap, every event gets one of the states that the events of the group have with sp_seq, and keeps it whatever runs next.
    Missing: that it is its own and that no other event has the same. *)
Theorem c103_any_schedule_partial : forall n r schedule s, run schedule (start r n) = Some s -> forall i x, nth_error (events s) i = Some (Has x) ->
  (exists k, k < n /\ x = nth_noise r k) /\ forall more s', run more s = Some s' -> nth_error (events s') i = Some (Has x).
Proof. exact any_schedule. Qed.
Print Assumptions c103_any_schedule_partial.
Example c103_any_schedule_case : let r := sp_random_state_new 1557083953 in exists s, run [0; 1; 0; 2; 2; 1] (start r 3) = Some s /\ events s = [Has (nth_noise r 0); Has (nth_noise r 0); Has (nth_noise r 1)].
Proof. eexists. split; vm_compute; reflexivity. Qed.

(** Refuted for any number of events: a schedule exists in which all noise events of a group get the same random numbers. *)
Theorem c103_noise_refuted : forall n r, exists schedule s, Permutation schedule (seq 0 n ++ seq 0 n) /\ run schedule (start r n) = Some s /\
  all_have n (fun _ => nth_noise r 0) s.
Proof. exact all_equal. Qed.
Print Assumptions c103_noise_refuted.
(** the first two numbers after sp_initialize differ: the seed is 1557083953 (sph-sp.h:29) *)
Example c103_refuted_met : nth_noise (sp_random_state_new 1557083953) 0 <> nth_noise (sp_random_state_new 1557083953) 1.
Proof. vm_compute. discriminate. Qed.

(** Refuted also without overlap: what an event sounds like depends on the schedule. *)
Theorem c103_order_refuted : forall n r, nth_noise r 0 <> nth_noise r 1 -> exists schedule schedule' s s',
  run schedule (start r (S (S n))) = Some s /\ run schedule' (start r (S (S n))) = Some s' /\
  nth_error (events s) 0 = Some (Has (nth_noise r 0)) /\ nth_error (events s') 0 = Some (Has (nth_noise r 1)) /\
  nth_error (events s) 0 <> nth_error (events s') 0.
Proof.
  intros n r H. destruct (in_turn (S (S n)) (seq 0 (S (S n))) r (Permutation_refl _)) as (s & H1 & _ & H2).
  destruct (in_turn (S (S n)) (1 :: 0 :: seq 2 n) r) as (s' & H3 & _ & H4); [apply perm_swap|].
  exists (one_by_one (seq 0 (S (S n)))), (one_by_one (1 :: 0 :: seq 2 n)), s, s'. assert (E1 := H2 0 0 eq_refl). assert (E2 := H4 1 0 eq_refl). splits; auto. congruence.
Qed.
Print Assumptions c103_order_refuted.
Example c103_order_case : exists s s', run [0; 0; 1; 1] (start (sp_random_state_new 1557083953) 2) = Some s /\ run [1; 1; 0; 0] (start (sp_random_state_new 1557083953) 2) = Some s' /\
  nth_error (events s) 0 <> nth_error (events s') 0.
Proof. eexists. eexists. split; [vm_compute; reflexivity|]. split; [vm_compute; reflexivity|]. discriminate. Qed.
