(** Sine tables and memory as a user sees them. *)
From Verif Require Import Base BlockModel InitModel.
From Coq Require Import Reals.
Open Scope nat_scope.

(** one period of a sine with [n] samples *)
Definition period (n : nat) : list R := map (fun i => sin (2 * PI * INR i / INR n)) (seq 0 n).
(** addresses that have not been used are not allocated *)
Definition fresh (m : mem R) : Prop := forall q, next R m <= q -> cells R m q = None.
(** the same arrays are allocated, with the same contents *)
Definition same_memory (m m' : mem R) : Prop := forall q, cells R m' q = cells R m q.
(** new memory: the arrays [a] at [p] and [b] at [q], which are different addresses that were not allocated. All else is as before *)
Definition two_more (m m' : mem R) (p : nat) (a : list R) (q : nat) (b : list R) : Prop :=
  p <> q /\ cells R m p = None /\ cells R m q = None /\ cells R m' p = Some a /\ cells R m' q = Some b /\ forall r, r <> p -> r <> q -> cells R m' r = cells R m r.
