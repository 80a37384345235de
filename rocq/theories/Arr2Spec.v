(** What minimum, maximum, search, exchange and series functions are to do. *)
From Verif Require Import Base ArrSpec.

(** [lt] is a strict order in which elements that are not less than each other are interchangeable. The order of times is
    one, the order of samples is one as long as no sample is not-a-number. *)
Definition ordered {A : Type} (lt : A -> A -> bool) : Prop :=
  (forall x y, lt x y = true -> lt y x = false) /\
  (forall x y z, lt x y = false -> lt y z = false -> lt x z = false).
(** start, start + summand, (start + summand) + summand, ... *)
Fixpoint series {A : Type} (add : A -> A -> A) (start summand : A) (count : nat) : list A :=
  match count with O => [] | S count => start :: series add (add start summand) summand count end.
