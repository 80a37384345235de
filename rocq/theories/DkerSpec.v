(** Accuracy of filter kernels and of the sine table with doubles *)
From Coq Require Import Reals List.
From Verif Require Import KerSpec DblModel DblSpec.
Open Scope R_scope.

(** the cosine of the C library has an absolute error of at most [d], and the sine one of at most [d] times the smaller of 1 and its argument, for arguments up to 2^40 *)
Definition libm_near (d : R) (fcos fsin : f64 -> f64) : Prop :=
  forall x, finite x -> Rabs (real x) <= IZR (2 ^ 40) ->
    finite (fcos x) /\ Rabs (real (fcos x) - cos (real x)) <= d /\ finite (fsin x) /\ Rabs (real (fsin x) - sin (real x)) <= d * Rmin 1 (Rabs (real x)).
(** [len] is the least odd number that is at least [x] *)
Definition least_odd (x : R) (len : nat) : Prop := Nat.odd len = true /\ x <= INR len /\ forall n, Nat.odd n = true -> x <= INR n -> (len <= n)%nat.
(** the error of the unscaled kernel in total: 27 roundings and three library errors per sample, and the sum *)
Definition kernel_error (d : R) (len : nat) : R := INR len * (3 * d + 27 * unit_roundoff) + 14 * INR len * INR len * unit_roundoff.
(** [h] is finite and each sample differs from that of [k] by at most [e] *)
Definition near_kernel (e : R) (h : list f64) (k : list R) : Prop :=
  length h = length k /\ forall i, (i < length k)%nat -> finite (nth i h fzero) /\ Rabs (real (nth i h fzero) - nth i k 0) <= e.
(** the gain at frequency zero of a kernel of doubles: the exact sum of its samples *)
Definition gain64 (h : list f64) : R := real_sum h.
