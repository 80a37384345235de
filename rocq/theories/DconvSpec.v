(** What convolution in double precision should compute *)
From Coq Require Import Reals List.
From Verif Require Import DblModel DblSpec ConvolveSpec.
Open Scope R_scope.
(** sample [k] of the exact convolution of the numbers *)
Definition exact_sample (a b : list f64) (k : nat) : R := conv_sample R Rplus Rmult 0 (map real a) (map real b) k.
(** the same with magnitudes: an upper bound for the magnitude of the sample *)
Definition magnitude (a b : list f64) (k : nat) : R := conv_sample R Rplus Rmult 0 (map (fun x => Rabs (real x)) a) (map (fun x => Rabs (real x)) b) k.
(** the error that is allowed for sample [k]: proportional to the length of the shorter array, and a part for results near to the smallest numbers *)
Definition error_bound (a b : list f64) (k : nat) : R :=
  let n := INR (Nat.min (length a) (length b)) in (2 * n + 2) * unit_roundoff * magnitude a b k + 2 * n * / IZR (2 ^ 1022).
(** [v] is sample [k] of the convolution up to rounding *)
Definition approximates (a b : list f64) (k : nat) (v : f64) : Prop := finite v /\ Rabs (real v - exact_sample a b k) <= error_bound a b k.
