(** sp_time_deharmonize of /repo/source/c-precompiled/sph-sp/main.c.

    sp_time_t is uint32, samples are exact rationals as in MiscModel. The two random functions are parameters:
    [bounded range st] is sp_time_random_bounded (None where it is undefined), [random st] is sp_time_random. *)
From Verif Require Import Base MiscModel.
From Coq Require Import QArith Qround Qminmax.
Open Scope nat_scope.

(** sp_inline_absolute_difference, main.h:45, on uint32 *)
Definition absolute_difference (a b : Z) : Z := if (b <? a)%Z then u32 (a - b) else u32 (b - a).

Section Deharmonize.
Context {St : Type}.
Variable bounded : Z -> St -> option (Z * St).
Variable random : St -> Z * St.
(** sp_time_deharmonize, main.c:497-516 *)
Definition deharmonize (a base : Z) (amount : Q) (st : St) : option (Z * St) :=
  _ <- need (negb (base =? 0)%Z) ;;
  let nearest := u32 (u32 (u32 (a + base) - 1) / base * base) in
  let distance_ratio := (inject_Z (u32 (base - absolute_difference a nearest)) / inject_Z base)%Q in
  '(r, st) <- bounded (base / 2)%Z st ;;
  let amount := (amount * distance_ratio * inject_Z (u32 (1 + r)))%Q in
  if (nearest <? a)%Z || Qlt_bool (inject_Z a) amount then z <- time_of (inject_Z a + amount)%Q ;; Some (z, st)
  else if (a <? nearest)%Z then z <- time_of (inject_Z a - amount)%Q ;; Some (z, st)
  else
    let '(b, st) := random st in
    z <- (if Z.odd b then time_of (inject_Z a - amount)%Q else time_of (inject_Z a + amount)%Q) ;; Some (z, st).
End Deharmonize.
