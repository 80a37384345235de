(** The numbers a 32 bit float can be. *)
From Coq Require Import ZArith Reals.
From Flocq Require Import Core.
From Verif Require Import Base DblModel DblSpec.
Open Scope R_scope.

(** m * 2 ^ e with 24 bit for m and the smallest exponent -149. (The largest number is given separately.) *)
Definition single (r : R) : Prop := exists m e : Z, (Z.abs m < 2 ^ 24)%Z /\ (-149 <= e)%Z /\ r = IZR m * bpow radix2 e.
(** the largest finite float *)
Definition single_max : R := bpow radix2 128 - bpow radix2 104.
(** no number a float can be is nearer to [x] than [y] *)
Definition nearest_single (x y : R) : Prop := single y /\ forall z, single z -> Rabs (y - x) <= Rabs (z - x).
