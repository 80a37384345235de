(** Counting parallel groups, and fair schedules *)
From Verif Require Import Base NestModel.

Definition sum (l : list nat) : nat := fold_right Nat.add 0 l.
(** the number of groups that have members, at any depth *)
Fixpoint groups (j : job) : nat :=
  match j with Leaf => 0 | Group [] => 0 | Group ms => 1 + fold_right (fun j n => groups j + n) 0 ms end.
Definition all_groups (l : list job) : nat := sum (map groups l).
(** the call has returned *)
Definition returned (s : state) : Prop := is_finished s 0 = true.
(** threads of a pool with [n] threads *)
Definition thread_of (n : nat) (t : thread) : Prop := match t with Main => True | Worker w => w < n end.
(** no thread is left out for ever *)
Definition fair (n : nat) (schedule : nat -> thread) : Prop :=
  (forall k, thread_of n (schedule k)) /\ forall t, thread_of n t -> forall k, exists k', k <= k' /\ schedule k' = t.
Definition prefix (schedule : nat -> thread) (k : nat) : list thread := map schedule (seq 0 k).
