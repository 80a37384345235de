(** What users expect from a function that returns a new array *)
From Verif Require Import Base BlockModel.
Open Scope nat_scope.

(** the memory after is the memory before and one more array with the elements [l], at an address that was not in use *)
Definition one_more (V : Type) (m : mem V) (p : pointer) (l : list V) (m' : mem V) : Prop :=
  snd p = 0 /\ cells V m (fst p) = None /\ cells V m' (fst p) = Some l /\ forall q, q <> fst p -> cells V m' q = cells V m q.
(** malloc and calloc never give memory that is in use *)
Definition honest (V : Type) (m : mem V) : Prop := cells V m (next V m) = None.
