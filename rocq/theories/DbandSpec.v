(** Streams that are filtered in double precision *)
From Coq Require Import Reals List.
From Verif Require Import ConvolveSpec KerSpec DblModel DblSpec DkerSpec.
Open Scope R_scope.

(** [h] is the convolution of [a] and [b] *)
Definition convolution_of (a b h : list R) : Prop :=
  length h = (length a + length b - 1)%nat /\ forall i, (i < length h)%nat -> nth i h 0 = conv_sample R Rplus Rmult 0 a b i.
(** the kernels of band filters: the sum of a low pass and a high pass, and the convolution of a low pass and a high pass *)
Definition band_reject_kernel (cutoff_l cutoff_h : R) (len_l len_h : nat) (k : list R) : Prop :=
  exists lp hp, low_pass_kernel cutoff_l len_l lp /\ high_pass_kernel cutoff_h len_h hp /\ if (len_h <? len_l)%nat then centered_sum lp hp k else centered_sum hp lp k.
Definition band_pass_kernel (cutoff_l cutoff_h : R) (len_l len_h : nat) (k : list R) : Prop :=
  exists lp hp, low_pass_kernel cutoff_h len_h lp /\ high_pass_kernel cutoff_l len_l hp /\ convolution_of lp hp k.
(** the error allowed for the samples of the band kernels *)
Definition reject_error (d : R) (len_l len_h : nat) : R := 4 * (kernel_error d len_l + kernel_error d len_h) + 8 * unit_roundoff.
Definition pass_error (d : R) (len_l len_h : nat) : R :=
  let n := INR (Nat.min len_l len_h) in n * (12 * (kernel_error d len_l + kernel_error d len_h) + 40 * n * unit_roundoff).
(** The error allowed for a filtered stream of samples of at most [m], where the samples of the kernel have errors of at most [e] and are at most [g]: that of the
    kernel, that of the sums and products, and a part for results near to the smallest numbers *)
Definition filter_error (m e g : R) (n : nat) : R := m * (INR n * e + 3 * INR n * INR n * g * unit_roundoff) + 2 * INR n * / IZR (2 ^ 1022).
(** [y] is the stream [x] filtered with the kernel [k], with errors of at most [e] *)
Definition filtered (e : R) (x : list f64) (k : list R) (y : list f64) : Prop :=
  length y = length x /\ forall i, (i < length x)%nat -> finite (nth i y fzero) /\ Rabs (real (nth i y fzero) - conv_sample R Rplus Rmult 0 (map real x) k i) <= e.
