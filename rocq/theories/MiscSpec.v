(** Specification of the small numeric functions and of strings *)
From Verif Require Import Base.
From Coq Require Import QArith.
Open Scope nat_scope.

(** n! *)
Fixpoint factorial (n : nat) : Z := match n with O => 1 | S n' => Z.of_nat n * factorial n' end%Z.
(** sum of a list *)
Definition zsum (l : list Z) : Z := fold_right Z.add 0%Z l.
(** [t] is the contents [bytes] followed by a zero byte and anything else *)
Definition holds_string (memory bytes : list Z) : Prop := Forall (fun c => c <> 0%Z) bytes /\ exists rest, memory = bytes ++ 0%Z :: rest.
(** the strings with a delimiter between them *)
Fixpoint joined (delimiter : list Z) (strings : list (list Z)) : list Z :=
  match strings with
  | [] => []
  | [s] => s
  | s :: rest => s ++ delimiter ++ joined delimiter rest
  end.
(** phase of an oscillator before sample [i]: start + sum of the frequencies so far, modulo the period *)
Definition phase_at (start : Z) (frequency : nat -> Z) (period : Z) (i : nat) : Z :=
  ((start + zsum (map frequency (seq 0 i))) mod period)%Z.
