(** Specifications for filter kernels. *)
From Coq Require Import Reals.
From Verif Require Import Base.
Open Scope R_scope.

(** sum of f 0 .. f (n - 1) *)
Fixpoint rsumf (n : nat) (f : nat -> R) : R := match n with O => 0 | S n => rsumf n f + f n end.
(** gain at frequency zero: the sum of all samples *)
Definition gain (h : list R) : R := rsumf (length h) (fun k => nth k h 0).
(** gain at the highest frequency: samples with alternating signs *)
Definition gain_highest (h : list R) : R := rsumf (length h) (fun k => (-1) ^ k * nth k h 0).
(** frequency response at [w] radians per sample, real and imaginary part of the sum of h(k) exp(-i k w) *)
Definition response_re (h : list R) (w : R) : R := rsumf (length h) (fun k => nth k h 0 * cos (INR k * w)).
Definition response_im (h : list R) (w : R) : R := rsumf (length h) (fun k => nth k h 0 * - sin (INR k * w)).
Definition symmetric (h : list R) : Prop := forall i, (i < length h)%nat -> nth i h 0 = nth (length h - 1 - i) h 0.
(** sin(pi x) / (pi x) *)
Definition is_sinc (x y : R) : Prop := (x = 0 -> y = 1) /\ (x <> 0 -> y = sin (PI * x) / (PI * x)).
(** sample [i] of the sinc function with cutoff [fc], around the middle of [len] samples, times a blackman window *)
Definition raw_sample (fc : R) (len i : nat) (x : R) : Prop :=
  exists s, is_sinc (2 * fc * (INR i - (INR len - 1) / 2)) s /\
    x = (42 / 100 - 5 / 10 * cos (2 * PI * (INR i / (INR len - 1))) + 8 / 100 * cos (4 * PI * (INR i / (INR len - 1)))) * s.
Definition raw_kernel (fc : R) (len : nat) (raw : list R) : Prop :=
  length raw = len /\ forall i, (i < len)%nat -> raw_sample fc len i (nth i raw 0).
(** the low pass kernel: raw samples divided by their sum, which is not zero *)
Definition low_pass_kernel (fc : R) (len : nat) (h : list R) : Prop :=
  length h = len /\ exists raw, raw_kernel fc len raw /\ gain raw <> 0 /\ forall i, (i < len)%nat -> nth i h 0 = nth i raw 0 / gain raw.
(** unit impulse in the middle *)
Definition impulse (len : nat) (k : nat) : R := if (k =? (len - 1) / 2)%nat then 1 else 0.
(** the high pass kernel is an impulse minus the low pass kernel *)
Definition high_pass_kernel (fc : R) (len : nat) (h : list R) : Prop :=
  length h = len /\ exists lp, low_pass_kernel fc len lp /\ forall i, (i < len)%nat -> nth i h 0 = impulse len i - nth i lp 0.
(** the length for a transition: the least odd number that is at least 4 / transition *)
Definition kernel_length (transition : R) (len : nat) : Prop :=
  Nat.odd len = true /\ 4 / transition <= INR len /\ forall n, Nat.odd n = true -> 4 / transition <= INR n -> (len <= n)%nat.
(** [h] is [out] plus [over], with their centers aligned *)
Definition centered_sum (out over h : list R) : Prop :=
  exists start, (length out = length over + 2 * start)%nat /\ length h = length out /\
    forall i, (i < length out)%nat -> nth i h 0 = nth i out 0 + (if (start <=? i)%nat && (i <? start + length over)%nat then nth (i - start) over 0 else 0).
(** response relative to the center of the kernel, which is real for symmetric kernels *)
Definition amplitude (h : list R) (w : R) : R := rsumf (length h) (fun k => nth k h 0 * cos ((INR k - (INR (length h) - 1) / 2) * w)).
