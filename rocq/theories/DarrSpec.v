(** What arithmetic on arrays of doubles is measured against *)
From Coq Require Import ZArith Reals List.
From Verif Require Import DblModel DblSpec.
Import ListNotations.
Open Scope R_scope.
(** [m] is the greatest absolute value in [l] without its fraction; 0 for no samples *)
Definition whole_peak (l : list f64) (m : Z) : Prop :=
  (0 <= m)%Z /\ Forall (fun x => Rabs (real x) < IZR m + 1) l /\ (m = 0%Z \/ Exists (fun x => IZR m <= Rabs (real x)) l).
(** the rest of an array is as before *)
Definition rest_kept (n : nat) (l l' : list f64) : Prop := length l' = length l /\ forall i, (n <= i)%nat -> nth_error l' i = nth_error l i.
