(** What the operations on doubles should compute, in terms of real numbers *)
From Coq Require Import Reals List.
From Flocq Require Import Core BinarySingleNaN.
From Verif Require Import DblModel.
Import ListNotations.
Open Scope R_scope.
(** the real number of a double; 0 for infinities and not-a-number *)
Definition real (a : f64) : R := B2R a.
Definition finite (a : f64) : Prop := is_finite a = true.
(** the unit roundoff: each operation has at most this relative error *)
Definition unit_roundoff : R := / IZR (2 ^ 53).
Fixpoint real_sum (l : list f64) : R := match l with [] => 0 | a :: l => real a + real_sum l end.
Fixpoint real_abs_sum (l : list f64) : R := match l with [] => 0 | a :: l => Rabs (real a) + real_abs_sum l end.
(** the greatest double below one half *)
Definition just_below_half : R := / 2 - / IZR (2 ^ 54).
(** [z] is the integer nearest to [x], the greater one if two are *)
Definition nearest_integer (x : R) (z : Z) : Prop := IZR z - / 2 <= x < IZR z + / 2.
