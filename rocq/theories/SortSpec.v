(** Specifications for sorting and statistics. *)
From Verif Require Import Base.
From Coq Require Import QArith Qabs Sorting.Permutation Sorting.Sorted.
Open Scope nat_scope.

(** [less] is a strict weak order: no two elements are less than each other, and "not greater" is transitive *)
Definition strict_weak_order {A : Type} (less : A -> A -> bool) : Prop :=
  (forall x y, less x y = true -> less y x = false) /\
  (forall x y z, less y x = false -> less z y = false -> less z x = false).
(** no element is greater than one that comes later *)
Definition ordered {A : Type} (less : A -> A -> bool) (l : list A) : Prop := StronglySorted (fun x y => less y x = false) l.
(** [b] is [a] in order *)
Definition sorting_of {A : Type} (less : A -> A -> bool) (a b : list A) : Prop := Permutation a b /\ ordered less b.
(** [m] is an element of [l] that is not greater (less) than any other *)
Definition minimum_of {A : Type} (le : A -> A -> Prop) (m : A) (l : list A) : Prop := In m l /\ Forall (le m) l.
Definition maximum_of {A : Type} (le : A -> A -> Prop) (m : A) (l : list A) : Prop := In m l /\ Forall (fun x => le x m) l.
(** sum of [i * x_i], the first index is [i] *)
Fixpoint zweighted (i : Z) (l : list Z) : Z := match l with [] => 0%Z | x :: l => (i * x + zweighted (i + 1) l)%Z end.
Fixpoint qweighted (i : Z) (l : list Q) : Q := match l with [] => 0%Q | x :: l => (inject_Z i * x + qweighted (i + 1) l)%Q end.
(** mean of [(x - mean)^k] *)
Definition moment (k : nat) (mean : Q) (l : list Q) : Q :=
  ((fold_right (fun x s => Qpower (x - mean) (Z.of_nat k) + s) 0 l) / inject_Z (Z.of_nat (length l)))%Q.
(** how many subsequences of [width] adjacent elements an array of [size] elements has: one for each start position that leaves
    enough elements *)
Definition windows (size width : nat) : nat := length (filter (fun start => start + width <=? size) (seq 0 (S size))).
(** [d] is how far [q] is away from the nearest integer *)
Definition nearest_distance (q d : Q) : Prop := (exists z, d == Qabs (q - inject_Z z))%Q /\ (forall z, d <= Qabs (q - inject_Z z))%Q.
(** [m] is the mean distance of the multiples [x / y] of [y] to integer multiples *)
Definition mean_distance (l : list Q) (y m : Q) : Prop :=
  exists ds, Forall2 (fun x d => nearest_distance (x / y) d) l ds /\ (m == fold_right Qplus 0 ds / inject_Z (Z.of_nat (length l)))%Q.
