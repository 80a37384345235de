(** The Fourier transform of FftModel.v with doubles.

    - The operations round as in DblModel.v. A compiler could contract a product and a sum into one operation with one rounding; that is left out, as it needs
      -ffp-contract or a default of the compiler that depends on the target.
    - cos and sin of the C library are arguments. *)
From Coq Require Import ZArith.
From Flocq Require Import BinarySingleNaN.
From Verif Require Import Base DblModel FftModel.

(** the constant M_PI of math.h, 3.14159265358979323846 rounded to double *)
Definition m_pi : f64 := fmake 884279719003555 (-48).
Definition fneg (a : f64) : f64 := Bopp a.
Definition f_of_nat (n : nat) : f64 := f_of_Z (Z.of_nat n).
(** 2 * M_PI * i / n, fft.c:70-71 *)
Definition angle_turn (i n : nat) : f64 := fdiv (fmul (fmul (f_of_Z 2) m_pi) (f_of_nat i)) (f_of_nat n).
(** M_PI * temp / n, fft.c:148 *)
Definition angle_half (i n : nat) : f64 := fdiv (fmul m_pi (f_of_nat i)) (f_of_nat n).
Section Fft64.
Variable fcos fsin : f64 -> f64.
Variable junk : nat -> list f64.
(** sp_fft and sp_ffti, main.c:221, 227 *)
Definition sp_fft64 : (list nat -> bool) -> nat -> arrays_of f64 -> option (Z * arrays_of f64) :=
  fft_of f64 fzero fadd fsub fmul fneg (fun x n => fdiv x (f_of_nat n)) (fun i n => fcos (angle_turn i n)) (fun i n => fsin (angle_turn i n))
    (fun i n => fcos (angle_half i n)) (fun i n => fsin (angle_half i n)) junk.
Definition sp_ffti64 : (list nat -> bool) -> nat -> arrays_of f64 -> option (Z * arrays_of f64) :=
  ffti_of f64 fzero fadd fsub fmul fneg (fun x n => fdiv x (f_of_nat n)) (fun i n => fcos (angle_turn i n)) (fun i n => fsin (angle_turn i n))
    (fun i n => fcos (angle_half i n)) (fun i n => fsin (angle_half i n)) junk.
End Fft64.
