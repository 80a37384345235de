(** Specification for shuffling, discrete random numbers, permutations and compositions *)
From Verif Require Import Base MiscSpec.

(** a generator that yields numbers from 0 to bound - 1 *)
Definition bounded {St : Type} (random : St -> Z -> option (Z * St)) : Prop :=
  forall st bound, (0 < bound)%Z -> exists r st', random st bound = Some (r, st') /\ (0 <= r < bound)%Z.
(** a generator that returns the numbers of a list and refuses numbers that are not below the bound *)
Definition choose (choices : list Z) (bound : Z) : option (Z * list Z) :=
  match choices with
  | c :: rest => if ((0 <=? c) && (c <? bound))%Z then Some (c, rest) else None
  | [] => None
  end.
(** 64 bit samples as pairs of 32 bit words *)
Fixpoint samples_of (words : list Z) : list (Z * Z) :=
  match words with a :: b :: rest => (a, b) :: samples_of rest | _ => [] end.
(** the numbers 0 .. n - 1 *)
Definition below (n : Z) : list Z := map Z.of_nat (seq 0 (Z.to_nat n)).
(** cumulative sums of a distribution *)
Definition cumulative (dist : list Z) : list Z := map (fun i => zsum (firstn (S i) dist)) (seq 0 (length dist)).
(** a list of positive numbers with the given sum *)
Definition composition (n : Z) (l : list Z) : Prop := Forall (fun x => (0 < x)%Z) l /\ zsum l = n.
