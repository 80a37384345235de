(** The samples of WAV files: the conversion of double to the 32 bit of a float in sp_file_write, P/file.c:57, and back in sp_file_read, P/file.c:112.
    float is the binary32 format of IEEE 754 and conversions are those of its annex in the C standard: rounding is to nearest with ties to even, and numbers too large become infinite.
    One not-a-number, with the usual bits 0x7fc00000: payloads are left out. *)
From Coq Require Import ZArith Bool.
From Flocq Require Import Core BinarySingleNaN.
From Verif Require Import Base DblModel.

Definition f32 : Type := binary_float 24 128.
#[global] Instance prec32 : Prec_gt_0 24 := eq_refl.
#[global] Instance emax32 : Prec_lt_emax 24 128 := eq_refl.

(** the assignment of a double to a float, file.c:57 *)
Definition to_float (x : f64) : f32 :=
  match x with
  | B754_zero s => B754_zero s
  | B754_infinity s => B754_infinity s
  | B754_nan => B754_nan
  | B754_finite s m e _ => binary_normalize 24 128 prec32 emax32 mode_NE (cond_Zopp s (Z.pos m)) e s
  end.
(** the bits of a float: sign, 8 bit exponent, 23 bit mantissa *)
Definition sign_bit (s : bool) : Z := if s then 2 ^ 31 else 0.
Definition float_bits (x : f32) : Z :=
  match x with
  | B754_zero s => sign_bit s
  | B754_infinity s => sign_bit s + 255 * 2 ^ 23
  | B754_nan => 255 * 2 ^ 23 + 2 ^ 22
  | B754_finite s m e _ => sign_bit s + (if 2 ^ 23 <=? Z.pos m then (e + 150) * 2 ^ 23 + (Z.pos m - 2 ^ 23) else Z.pos m)%Z
  end.
(** what file_data[i] = x stores *)
Definition narrow32 (x : f64) : Z := float_bits (to_float x).
(** the assignment of the float with these bits to a double, file.c:112 *)
Definition widen32 (b : Z) : f64 :=
  let s := (2 ^ 31 <=? b)%Z in
  let exponent := (b mod 2 ^ 31 / 2 ^ 23)%Z in
  let mantissa := (b mod 2 ^ 23)%Z in
  let make := fun m e => binary_normalize 53 1024 prec64 emax64 mode_NE (cond_Zopp s m) e s in
  if (exponent =? 255)%Z then if (mantissa =? 0)%Z then B754_infinity s else B754_nan
  else if (exponent =? 0)%Z then make mantissa (-149)%Z
  else make (mantissa + 2 ^ 23)%Z (exponent - 150)%Z.
(** a sample after writing it to a file and reading it *)
Definition reread (x : f64) : f64 := widen32 (narrow32 x).
