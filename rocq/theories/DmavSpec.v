(** The means that the moving average approximates, in real numbers *)
From Coq Require Import ZArith Reals List.
From Verif Require Import Base DblModel DblSpec.
Open Scope R_scope.

(** element of an array, zero outside *)
Definition rsample (l : list f64) (i : Z) : R := if (i <? 0)%Z then 0 else real (nth (Z.to_nat i) l fzero).
(** The signal continued to both sides: before the start with the end of [prev], or mirrored with opposite sign; after the end with [next], or with the negated start (see C09) *)
Definition continued (input : list f64) (prev next : option (list f64)) (i : Z) : R :=
  let n := Z.of_nat (length input) in
  if (i <? 0)%Z then match prev with Some p => rsample p (n + i) | None => - rsample input (- i) end
  else if (i <? n)%Z then rsample input i
  else match next with Some p => rsample p (i - n) | None => - rsample input (i + 1 - n) end.
(** f i + .. + f (i + n - 1) *)
Fixpoint sum_from (f : Z -> R) (i : Z) (n : nat) : R := match n with O => 0 | S n => f i + sum_from f (i + 1) n end.
(** mean of the 2 * radius + 1 values around [i] *)
Definition window_mean (f : Z -> R) (radius i : nat) : R := sum_from f (Z.of_nat i - Z.of_nat radius) (2 * radius + 1) / IZR (2 * Z.of_nat radius + 1).
(** all samples are finite and have at most the magnitude [A] *)
Definition within (A : R) (l : list f64) : Prop := Forall (fun x => finite x /\ Rabs (real x) <= A) l.
