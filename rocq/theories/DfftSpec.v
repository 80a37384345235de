(** Accuracy of the Fourier transform with doubles *)
From Coq Require Import Reals List.
From Verif Require Import KerSpec DblModel DblSpec FftSpec.
Open Scope R_scope.

(** the cosine and sine of the C library have an absolute error of at most [d] for arguments between -8 and 8 *)
Definition libm_within (d : R) (fcos fsin : f64 -> f64) : Prop :=
  forall x, finite x -> Rabs (real x) <= 8 ->
    finite (fcos x) /\ Rabs (real (fcos x) - cos (real x)) <= d /\ finite (fsin x) /\ Rabs (real (fsin x) - sin (real x)) <= d.
(** two arrays of [n] finite numbers: real and imaginary parts *)
Definition all_finite (n : nat) (re im : list f64) : Prop := length re = n /\ length im = n /\ Forall finite re /\ Forall finite im.
(** the sum of the magnitudes of the elements of a complex signal *)
Definition magnitudes (n : nat) (re im : list f64) : R :=
  rsumf n (fun j => sqrt (real (nth j re fzero) * real (nth j re fzero) + real (nth j im fzero) * real (nth j im fzero))).
(** the output is finite and each part differs from the transform by at most [e] *)
Definition near_dft (e : R) (n : nat) (re im re' im' : list f64) : Prop :=
  length re' = n /\ length im' = n /\
  forall k, (k < n)%nat -> finite (nth k re' fzero) /\ finite (nth k im' fzero) /\
    Rabs (real (nth k re' fzero) - dft_re n (map real re) (map real im) k) <= e /\ Rabs (real (nth k im' fzero) - dft_im n (map real re) (map real im) k) <= e.
Definition near_idft (e : R) (n : nat) (re im re' im' : list f64) : Prop :=
  length re' = n /\ length im' = n /\
  forall k, (k < n)%nat -> finite (nth k re' fzero) /\ finite (nth k im' fzero) /\
    Rabs (real (nth k re' fzero) - idft_re n (map real re) (map real im) k) <= e /\ Rabs (real (nth k im' fzero) - idft_im n (map real re) (map real im) k) <= e.
(** error bounds for the length [n] and the sum of magnitudes [s], with errors of at most [d] of cosine and sine: for powers of two, 2 log2(n) (32 u + 3 d) s ... *)
Definition error_power_of_two (d : R) (n : nat) (s : R) : R := 2 * INR (Nat.log2 n) * (32 * unit_roundoff + 3 * d) * s + INR n * INR n / IZR (2 ^ 1020).
(** ... and for other lengths 16 n log2(4 n) (56 u + 3 d) s, where the terms with powers of two at the end are for underflow *)
Definition error_any (d : R) (n : nat) (s : R) : R := 16 * INR n * INR (Nat.log2 (4 * n)) * (56 * unit_roundoff + 3 * d) * s + INR n * INR n * INR n / IZR (2 ^ 1000).
