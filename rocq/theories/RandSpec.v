(** Specification for pseudo random numbers *)
From Verif Require Import Base.
Open Scope nat_scope.

(** a 64 bit word *)
Definition word64 (x : Z) : Prop := (0 <= x < two64)%Z.
Definition valid_state (s : Z * Z * Z * Z) : Prop := let '(a, b, c, d) := s in word64 a /\ word64 b /\ word64 c /\ word64 d.
Definition zero_state : Z * Z * Z * Z := (0, 0, 0, 0)%Z.

(** a 64 bit number is used when the low half of its product with the range is not below 2^64 mod range ... *)
Definition accepted (range x : Z) : bool := (two64 mod range <=? (x * range) mod two64)%Z.
(** ... and gives the high half of the product *)
Definition outcome (range x : Z) : Z := (x * range / two64)%Z.

(** [n] draws from a source, oldest first, and the source after them *)
Fixpoint draws {St V : Type} (draw : St -> V * St) (n : nat) (st : St) : list V * St :=
  match n with
  | O => ([], st)
  | S n => let '(x, st) := draw st in let '(l, st) := draws draw n st in (x :: l, st)
  end.
