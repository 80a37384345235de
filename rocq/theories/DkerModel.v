(** Filter kernels and the sine table with doubles: /repo/source/c-precompiled/sph-sp/filter.c:106-162, main.c:191-195, 218, 232-239.
    - The operations round as in DblModel.v. Infinities and not-a-number are values as in the code; [None] is undefined behaviour.
    - cos and sin of the C library are arguments. Allocations succeed.
    - A compiler could contract a product and a sum into one operation with one rounding; that is left out, as in DfftModel.v. *)
From Coq Require Import ZArith Bool.
From Flocq Require Import BinarySingleNaN.
From Verif Require Import Base DblModel DfftModel.

(** the constants 0.42 and 0.08, rounded to double *)
Definition c042 : f64 := fmake 7566047373982433 (-54).
Definition c008 : f64 := fmake 5764607523034235 (-56).
(** 4 * M_PI * a / (width - 1), filter.c:106 *)
Definition angle_two (i n : nat) : f64 := fdiv (fmul (fmul (f_of_Z 4) m_pi) (f_of_nat i)) (f_of_nat n).
(** ceil of math.h and the conversion to sp_time_t, filter.c:112. [None]: not in the range of the type, infinite or not a number *)
Definition time_of_ceil (a : f64) : option Z :=
  if is_finite a
  then let z := Btrunc a in let z := if flt (f_of_Z z) a then (z + 1)%Z else z in if ((0 <=? z) && (z <? 2 ^ 32))%Z%bool then Some z else None
  else None.
(** sp_windowed_sinc_lp_hp_ir_length, filter.c:110-117 *)
Definition ir_length64 (transition : f64) : option nat :=
  a <- time_of_ceil (fdiv (f_of_Z 4) transition) ;;
  Some (Z.to_nat (if (a mod 2 =? 0)%Z then u32 (a + 1) else a)).
(** sp_spectral_inversion_ir, main.c:232-239 *)
Definition spectral_inversion64 (a : list f64) (len : nat) : option (list f64) :=
  a <- for_ 0 len (fun i a => x <- aget a i ;; aset a i (fmul x (f_of_Z (-1)))) a ;;
  let center := Z.to_nat (u32 (Z.of_nat len - 1) / 2) in
  x <- aget a center ;; aset a center (fadd x (f_of_Z 1)).
Section Ker64.
Variable fcos fsin : f64 -> f64.
Variable junk : nat -> list f64.
(** sp_window_blackman, filter.c:106. The argument is a whole number here, as in the only call *)
Definition blackman64 (i width : nat) : f64 :=
  fadd (fsub c042 (fmul fhalf (fcos (angle_turn i (width - 1))))) (fmul c008 (fcos (angle_two i (width - 1)))).
(** sp_sinc, main.c:218 *)
Definition sinc64 (a : f64) : f64 := if Beqb fzero a then f_of_Z 1 else fdiv (fsin (fmul m_pi a)) (fmul m_pi a).
(** sp_windowed_sinc_lp_hp_ir, filter.c:135-162 *)
Definition lp_hp_ir64 (cutoff transition : f64) (is_high_pass : bool) : option (list f64) :=
  len <- ir_length64 transition ;;
  let center_index := fdiv (fsub (f_of_nat len) (f_of_Z 1)) (f_of_Z 2) in
  ir <- for_ 0 len (fun i ir => aset ir i (fmul (blackman64 i len) (sinc64 (fmul (fmul (f_of_Z 2) cutoff) (fsub (f_of_nat i) center_index))))) (junk len) ;;
  sum <- sum64 ir len ;;
  ir <- for_ 0 len (fun i ir => x <- aget ir i ;; aset ir i (fdiv x sum)) ir ;;
  if is_high_pass then spectral_inversion64 ir len else Some ir.
(** sp_sine_period, main.c:191-195. size / 2 is a division of unsigned numbers *)
Definition sine_period64 (size : nat) (out : list f64) : option (list f64) :=
  for_ 0 size (fun i out => aset out i (fsin (fmul (f_of_nat i) (fdiv m_pi (f_of_nat (size / 2)))))) out.
End Ker64.
