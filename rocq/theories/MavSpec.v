(** Specification of the centered moving average. *)
From Coq Require Import QArith.
From Verif Require Import Base.
Open Scope Z_scope.

(** element of an array, zero outside *)
Definition sample (l : list Q) (i : Z) : Q := if i <? 0 then 0%Q else nth (Z.to_nat i) l 0%Q.
(** The signal continued to both sides. Before the start: the end of [prev], or mirrored values with opposite sign. After the end: [next], or
    mirrored values with opposite sign. *)
Definition before_start (input : list Q) (prev : option (list Q)) (i : Z) : Q :=
  match prev with Some p => sample p (Z.of_nat (length input) + i) | None => - sample input (- i) end%Q.
Definition after_end (input : list Q) (next : option (list Q)) (i : Z) : Q :=
  match next with Some p => sample p (i - Z.of_nat (length input)) | None => - sample input (2 * (Z.of_nat (length input) - 1) - i) end%Q.
Definition extended (input : list Q) (prev next : option (list Q)) (i : Z) : Q :=
  if i <? 0 then before_start input prev i else if i <? Z.of_nat (length input) then sample input i else after_end input next i.
(** sum of f i .. f (i + n - 1) *)
Fixpoint qsumf (f : Z -> Q) (i : Z) (n : nat) : Q := match n with O => 0 | S n => f i + qsumf f (i + 1) n end%Q.
(** mean of the 2 * radius + 1 values around [i] *)
Definition centered_mean (f : Z -> Q) (radius : nat) (i : nat) : Q :=
  (qsumf f (Z.of_nat i - Z.of_nat radius) (2 * radius + 1) / inject_Z (2 * Z.of_nat radius + 1))%Q.

(** What the program uses: as above, but after the end without [next] the negated start of the input *)
Definition after_end_used (input : list Q) (next : option (list Q)) (i : Z) : Q :=
  match next with Some p => sample p (i - Z.of_nat (length input)) | None => - sample input (i + 1 - Z.of_nat (length input)) end%Q.
Definition used (input : list Q) (prev next : option (list Q)) (i : Z) : Q :=
  (if i <? 0 then before_start input prev i else if i <? Z.of_nat (length input) then sample input i else after_end_used input next i)%Z.

