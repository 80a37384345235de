(** Random numbers of a range with a custom probability distribution.

    Samples are exact rationals (see MiscModel.v), rounding of floating point operations is not modelled. *)
From Verif Require Import Base MiscModel CombModel.
From Coq Require Import QArith.
Open Scope nat_scope.

Section Bounded.
Variable St : Type.
(** sp_time_random_bounded: a draw from the random state *)
Variable random : St -> Z -> option (Z * St).

(** sp_time_random_discrete_bounded, /repo/source/c-precompiled/sph-sp/arrays.c:59-62. With one element the division is 0.0/0.0
    or 1.0/0.0, and the conversion of the result to sp_time_t is undefined. *)
Definition time_random_discrete_bounded (cudist : list Z) (range : Z) (st : St) : option (Z * St) :=
  '(d, st) <- random_discrete random cudist st ;;
  _ <- need (negb (length cudist =? 1)) ;;
  v <- cheap_round (inject_Z range * (inject_Z (Z.of_nat d) / inject_Z (Z.of_nat (length cudist - 1))))%Q ;;
  Some (v, st).
(** sp_sample_random_discrete_bounded, arrays.c:541 *)
Definition sample_random_discrete_bounded (cudist : list Z) (range : Q) (st : St) : option (Q * St) :=
  '(d, st) <- random_discrete random cudist st ;;
  Some ((range * (inject_Z (Z.of_nat d) / inject_Z (Z.of_nat (length cudist))))%Q, st).
End Bounded.
