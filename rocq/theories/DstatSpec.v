(** What statistics of doubles should compute *)
From Coq Require Import Reals List.
From Verif Require Import DblModel DblSpec.
Import ListNotations.
Open Scope R_scope.
(** [m] is an element of [l] and none is smaller; none is greater *)
Definition smallest (l : list f64) (m : f64) : Prop := In m l /\ Forall (fun x => real m <= real x) l.
Definition greatest (l : list f64) (m : f64) : Prop := In m l /\ Forall (fun x => real x <= real m) l.
(** mean, and the sum of a function of all elements *)
Definition mean (l : list f64) : R := real_sum l / INR (length l).
Fixpoint sum_of (f : R -> R) (l : list f64) : R := match l with [] => 0 | x :: l => f (real x) + sum_of f l end.
(** the root of the mean squared distance to the mean *)
Definition deviation (l : list f64) : R := sqrt (sum_of (fun x => (x - mean l) ^ 2) l / INR (length l)).
