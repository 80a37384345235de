(** The discrete Fourier transform. Signals are given as two lists, real and imaginary parts. *)
From Coq Require Import Reals.
From Verif Require Import Base KerSpec.
Open Scope R_scope.

Definition signal (re im : list R) (n : nat) : Prop := length re = n /\ length im = n.
(** X(k) = sum over j of x(j) exp(-2 pi i j k / n) *)
Definition dft_re (n : nat) (re im : list R) (k : nat) : R :=
  rsumf n (fun j => nth j re 0 * cos (2 * PI * INR j * INR k / INR n) + nth j im 0 * sin (2 * PI * INR j * INR k / INR n)).
Definition dft_im (n : nat) (re im : list R) (k : nat) : R :=
  rsumf n (fun j => nth j im 0 * cos (2 * PI * INR j * INR k / INR n) - nth j re 0 * sin (2 * PI * INR j * INR k / INR n)).
Definition is_dft (n : nat) (re im re' im' : list R) : Prop :=
  signal re' im' n /\ forall k, (k < n)%nat -> nth k re' 0 = dft_re n re im k /\ nth k im' 0 = dft_im n re im k.
(** x(k) = sum over j of X(j) exp(2 pi i j k / n), without scaling *)
Definition idft_re (n : nat) (re im : list R) (k : nat) : R :=
  rsumf n (fun j => nth j re 0 * cos (2 * PI * INR j * INR k / INR n) - nth j im 0 * sin (2 * PI * INR j * INR k / INR n)).
Definition idft_im (n : nat) (re im : list R) (k : nat) : R :=
  rsumf n (fun j => nth j im 0 * cos (2 * PI * INR j * INR k / INR n) + nth j re 0 * sin (2 * PI * INR j * INR k / INR n)).
Definition is_idft (n : nat) (re im re' im' : list R) : Prop :=
  signal re' im' n /\ forall k, (k < n)%nat -> nth k re' 0 = idft_re n re im k /\ nth k im' 0 = idft_im n re im k.
(** circular convolution: sum over j of x(j) y((k - j) mod n) *)
Definition circular_re (n : nat) (xr xi yr yi : list R) (k : nat) : R :=
  rsumf n (fun j => nth j xr 0 * nth ((k + n - j) mod n) yr 0 - nth j xi 0 * nth ((k + n - j) mod n) yi 0).
Definition circular_im (n : nat) (xr xi yr yi : list R) (k : nat) : R :=
  rsumf n (fun j => nth j xr 0 * nth ((k + n - j) mod n) yi 0 + nth j xi 0 * nth ((k + n - j) mod n) yr 0).
