(** What lines and random numbers in double precision should be *)
From Coq Require Import ZArith Reals QArith Qreals List.
From Verif Require Import DblModel DblSpec DlineModel.
Open Scope R_scope.
(** between two values, in any order *)
Definition between (a b v : R) : Prop := Rmin a b <= v <= Rmax a b.
(** the exact line from [a] at [x0] to [b] at [x1] *)
Definition line_at (x0 x1 : Z) (a b : R) (x : Z) : R := a + (b - a) * (IZR (x - x0) / IZR (x1 - x0)).
