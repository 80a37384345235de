(** Double precision arithmetic: sp_sample_t is double, sph-sp.h:50. The numbers of this model are the binary64 numbers of IEEE 754 with infinities and not-a-number (one
    not-a-number, as payloads have no influence on the results here), and all operations round to nearest with ties to even. The arithmetic is that of the Flocq library. *)
From Coq Require Import ZArith Reals List Lia.
From Flocq Require Import Core BinarySingleNaN.
From Verif Require Import Base.
Import ListNotations.

Definition f64 : Type := binary_float 53 1024.
#[global] Instance prec64 : Prec_gt_0 53 := eq_refl.
#[global] Instance emax64 : Prec_lt_emax 53 1024 := eq_refl.
Definition fadd (a b : f64) : f64 := Bplus mode_NE a b.
Definition fsub (a b : f64) : f64 := Bminus mode_NE a b.
Definition fmul (a b : f64) : f64 := Bmult mode_NE a b.
Definition fdiv (a b : f64) : f64 := Bdiv mode_NE a b.
Definition fle (a b : f64) : bool := Bleb a b.
Definition flt (a b : f64) : bool := Bltb a b.
Definition fzero : f64 := B754_zero false.
(** m * 2 ^ e, rounded *)
Definition fmake (m e : Z) : f64 := binary_normalize 53 1024 prec64 emax64 mode_NE m e false.
(** the conversion of an integer to double *)
Definition f_of_Z (z : Z) : f64 := fmake z 0.
Definition fhalf : f64 := fmake 1 (-1).
(** the conversion of a double to sp_time_t, an unsigned 32 bit integer: the fraction is discarded, undefined if the result is out of range *)
Definition time_of_f64 (a : f64) : option Z :=
  if is_finite a then let z := Btrunc a in if ((0 <=? z) && (z <? 2 ^ 32))%Z%bool then Some z else None else None.

(** ** sph_f64_sum, F/float.h:6-21, the sp_samples_sum of sph-sp.h:47. The countdown loop visits len - 2 .. 0. [None]: reads outside the array, as with len 0 *)
Definition sum_step (element : f64) (s : f64 * f64) : f64 * f64 :=
  let '(correction, result) := s in
  let temp := fadd result element in
  (fadd correction (if fle element result then fadd (fsub result temp) element else fadd (fsub element temp) result), temp).
Definition sum64 (numbers : list f64) (len : nat) : option f64 :=
  _ <- need (0 <? len) ;;
  result <- aget numbers (len - 1) ;;
  '(correction, result) <- for_ 0 (len - 1) (fun k s => element <- aget numbers (len - 2 - k) ;; Some (sum_step element s)) (fzero, result) ;;
  Some (fadd correction result).

(** ** Conversions, P/main.h. [None]: undefined behaviour *)
(** sp_cheap_round_positive and sp_sample_to_time, P/main.h:9, 32 *)
Definition cheap_round64 (a : f64) : option Z := time_of_f64 (fadd fhalf a).
(** sp_time_to_sample, P/main.h:27 *)
Definition time_to_sample64 (x : Z) : f64 := f_of_Z x.
(** sp_sample_to_unit, P/main.h:70 *)
Definition sample_to_unit64 (a : f64) : f64 := fdiv (fadd (f_of_Z 1) a) (f_of_Z 2).
(** sp_hz_to_factor and sp_factor_to_hz, P/main.h:65, 68, for integer frequencies *)
Definition hz_to_factor64 (rate x : Z) : f64 := fdiv (f_of_Z x) (f_of_Z rate).
Definition factor_to_hz64 (rate : Z) (x : f64) : option Z := time_of_f64 (fmul x (f_of_Z rate)).
(** sp_hz_to_samples and sp_samples_to_hz, P/main.h:63, 64, for integers: division of unsigned 32 bit numbers *)
Definition hz_to_samples (rate x : Z) : option Z := if (x =? 0)%Z then None else Some (rate / x)%Z.
Definition samples_to_hz (rate x : Z) : option Z := if (x =? 0)%Z then None else Some (rate / x)%Z.
(** sp_rate_duration, P/main.h:103: the product wraps at 2 ^ 32 *)
Definition rate_duration (rate n d : Z) : option Z := if (d =? 0)%Z then None else Some ((rate / d * n) mod 2 ^ 32)%Z.
(** sp_hz_to_rad and sp_rad_to_hz, P/main.h:66, 67, in exact arithmetic *)
Definition hz_to_rad (a : R) : R := (2 * PI * a)%R.
Definition rad_to_hz (a : R) : R := (PI / 2 * a)%R.
