(** Property C101: whether a parallel group of parallel groups ends *)
From Verif Require Import Base NestModel NestSpec NestProofs.

(** The claim that a parallel group always returns is false for every pool: if there are at least as many inner groups (with events, at any depth) as threads,
    some schedule leads to a state from which no continuation returns. *)
Theorem c101_parallel_groups_return_refuted : forall n l, 0 < n -> n <= all_groups l ->
  exists schedule s, Forall (thread_of n) schedule /\ run schedule (start n l) = Some s /\
    forall schedule' s', run schedule' s = Some s' -> ~ returned s'.
Proof. exact nested_deadlock. Qed.
Print Assumptions c101_parallel_groups_return_refuted.
(** two threads, two groups of one event each, one of them inside another group *)
Example c101_refuted_met : 0 < 2 /\ 2 <= all_groups [Leaf; Group [Leaf; Group [Leaf]]].
Proof. cbv. auto. Qed.
(** the schedule for two groups: both threads take a group, both groups wait for their event, nobody is left to evaluate it *)
Example c101_refuted_case :
  match run [Main; Main; Main; Worker 0; Worker 1; Worker 0; Worker 0; Worker 1; Worker 1] (start 2 [Group [Leaf]; Group [Leaf]]) with
  | Some s => queue s = [3; 4] /\ workers s = [Some 1; Some 2] /\ forall t, In t [Main; Worker 0; Worker 1] -> step t s = Some s
  | None => False
  end.
Proof. cbn. splits; auto. intros t [<-|[<-|[<-|[]]]]; reflexivity. Qed.

(** With fewer inner groups than threads the call returns: no schedule can make it fail, every schedule can be continued to the return,
    and every schedule that leaves out no thread for ever returns. Together with the theorem above the condition is exact.
    Missing from the claim: the calls with as many inner groups as threads, or more. *)
Theorem c101_parallel_groups_return_partial : forall n l, all_groups l < n ->
  (forall schedule, Forall (thread_of n) schedule -> exists s schedule' s',
     run schedule (start n l) = Some s /\ Forall (thread_of n) schedule' /\ run schedule' s = Some s' /\ returned s') /\
  (forall schedule, fair n schedule -> exists k s, run (prefix schedule k) (start n l) = Some s /\ returned s).
Proof. exact nested_returns. Qed.
Print Assumptions c101_parallel_groups_return_partial.
(** one thread is enough for any number of events that are not groups *)
Example c101_flat_met : all_groups [Leaf; Leaf; Group []; Leaf] < 1.
Proof. cbv. auto. Qed.
(** two threads and a group in a group: taking turns returns *)
Definition turns (k : nat) : thread := match k mod 3 with 0 => Main | S w => Worker w end.
Example c101_turns_fair : fair 2 turns.
Proof.
  split.
  - intros k. unfold turns. assert (H := Nat.mod_upper_bound k 3 ltac:(lia)). destruct (k mod 3); simpl; [exact I|lia].
  - intros t Ht k. set (r := match t with Main => 0 | Worker w => S w end). exists (3 * k + r). split; [lia|].
    unfold turns. replace (3 * k + r) with (r + k * 3) by lia. rewrite Nat.mod_add by lia. destruct t as [|[|[|w]]]; simpl in *; auto; lia.
Qed.
Example c101_turns_case : all_groups [Leaf; Group [Leaf; Leaf]] < 2 /\
  match run (prefix turns 30) (start 2 [Leaf; Group [Leaf; Leaf]]) with Some s => is_finished s 0 | None => false end = true.
Proof. split; [cbv; auto|reflexivity]. Qed.
