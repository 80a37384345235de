(** Shapes, rounding amounts and blends of times with doubles: /repo/source/c-precompiled/sph-sp/main.c:462-494, arrays.h:6, arrays.c:282-296 and 360-371.
    The operations round as in DblModel.v. [None] is undefined behaviour: a division by zero, an access outside of an array, or the conversion of a number out of range. *)
From Coq Require Import ZArith Bool.
From Flocq Require Import BinarySingleNaN.
From Verif Require Import Base DblModel DarrModel.
Open Scope nat_scope.

(** sp_triangle, main.c:462-466. The sum of a and b is a 32 bit number *)
Definition triangle64 (t a b : Z) : option f64 :=
  if (u32 (a + b) =? 0)%Z then None
  else
    let remainder := (t mod u32 (a + b))%Z in
    Some (if (remainder <? a)%Z then fmul (f_of_Z remainder) (fdiv (f_of_Z 1) (f_of_Z a))
          else fmul (fsub (f_of_Z b) (fsub (f_of_Z remainder) (f_of_Z a))) (fdiv (f_of_Z 1) (f_of_Z b))).
(** sp_inline_limit, main.h:37-39 *)
Definition inline_limit64 (x min max : f64) : f64 :=
  let y := if flt max x then max else x in if flt y min then min else y.
(** sp_pan_to_amp, main.c:476 *)
Definition pan_to_amp64 (value : f64) (channel : Z) : f64 :=
  if Z.odd channel then fdiv (inline_limit64 value (f_of_Z (channel - 1)) (fsub (f_of_Z channel) fhalf)) fhalf
  else fsub (f_of_Z 1) (fdiv (fsub (inline_limit64 value (fadd (f_of_Z channel) fhalf) (f_of_Z (channel + 1))) fhalf) fhalf).
(** sp_time_harmonize, main.c:490-494 *)
Definition harmonize64 (a base : Z) (amount : f64) : option Z :=
  if (base =? 0)%Z then None
  else
    let nearest := u32 (u32 (u32 (a + base) - 1) / base * base) in
    if (nearest <? a)%Z then time_of_f64 (fsub (f_of_Z a) (fmul amount (f_of_Z (u32 (a - nearest)))))
    else time_of_f64 (fadd (f_of_Z a) (fmul amount (f_of_Z (u32 (nearest - a))))).
(** sp_time_interpolate_linear, arrays.h:6 *)
Definition time_interpolate64 (a b : Z) (t : f64) : option Z := cheap_round64 (sample_interpolate64 (f_of_Z a) (f_of_Z b) t).
(** sp_times_blend, arrays.c:360-364 *)
Definition times_blend64 (a b : list Z) (fraction : f64) (size : nat) (out : list Z) : option (list Z) :=
  for_ 0 size (fun i out =>
    x <- aget a i ;; y <- aget b i ;; v <- time_interpolate64 x y fraction ;; v <- cheap_round64 (f_of_Z v) ;; aset out i v) out.
(** sp_times_mask, arrays.c:367-371 *)
Definition times_mask64 (a b : list Z) (coefficients : list f64) (size : nat) (out : list Z) : option (list Z) :=
  for_ 0 size (fun i out =>
    x <- aget a i ;; y <- aget b i ;; t <- aget coefficients i ;; v <- time_interpolate64 x y t ;; v <- cheap_round64 (f_of_Z v) ;; aset out i v) out.
(** sp_times_scale, arrays.c:282-296. The allocation of temp succeeds. The position in out is not reduced to 32 bits, which makes no
    difference for arrays of less than 2^32 elements. *)
Definition times_scale64 (input : list Z) (count factor : nat) (out : list Z) : option (list Z) :=
  temp <- slice input 0 count ;;
  let temp := map (fun x => u32 (x * Z.of_nat factor)) temp in
  for_ 1 count (fun i out =>
    for_ 0 factor (fun i2 out =>
      x <- aget temp (i - 1) ;; y <- aget temp i ;;
      v <- time_interpolate64 x y (fdiv (f_of_Z (Z.of_nat i2)) (f_of_Z (Z.of_nat factor))) ;;
      aset out (factor * (i - 1) + i2) v) out) out.
