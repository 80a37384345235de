(** Arithmetic on arrays of doubles: /repo/source/c-precompiled/sph-sp/arrays.c:514-568 and arrays-template.c:38-49, 73-77.
    The operations round as in DblModel.v. Input and output arrays are lists as in ScaleModel.v. [None] is undefined behaviour: a read or write
    outside of an array, or the conversion of a number that is not below 2^32 to sp_time_t. *)
From Coq Require Import ZArith Bool.
From Flocq Require Import BinarySingleNaN.
From Verif Require Import Base DblModel ArrModel.
Open Scope nat_scope.

(** sp_samples_differences, arrays.c:536-540 *)
Definition samples_differences64 (a : list f64) (count : nat) (out : list f64) : option (list f64) :=
  for_ 1 count (fun i out => x <- aget a i ;; y <- aget a (i - 1) ;; aset out (i - 1) (fsub x y)) out.
(** sp_samples_divisions, arrays.c:542-547 *)
Definition samples_divisions64 (start divisor : f64) (count : nat) (out : list f64) : option (list f64) :=
  '(out, _) <- for_ 0 count (fun i '(out, start) => out <- aset out i start ;; Some (out, fdiv start divisor)) (out, start) ;; Some out.
(** sp_sample_interpolate_linear, arrays.h:7 *)
Definition sample_interpolate64 (a b t : f64) : f64 := fadd (fmul (fsub (f_of_Z 1) t) a) (fmul t b).
(** sp_samples_blend, arrays.c:564-568 *)
Definition samples_blend64 (a b : list f64) (fraction : f64) (size : nat) (out : list f64) : option (list f64) :=
  for_ 0 size (fun i out => x <- aget a i ;; y <- aget b i ;; aset out i (sample_interpolate64 x y fraction)) out.
(** sp_samples_scale_sum, arrays.c:558-561. Result: in; out is not used *)
Definition samples_scale_sum64 (input : list f64) (count : nat) (target : f64) : option (list f64) :=
  sum <- sum64 input count ;; arr_multiply f64 fmul input 0 count (fdiv target sum).
(** sp_samples_absolute_max, arrays-template.c:38-49. temp and max have the type sp_time_t; sp_inline_abs, main.h:46 *)
Definition samples_absolute_max64 (l : list f64) (count : nat) : option Z :=
  for_ 0 count (fun i max =>
    x <- aget l i ;; temp <- time_of_f64 (if flt x fzero then fmul (f_of_Z (-1)) x else x) ;; Some (if (max <? temp)%Z then temp else max)) 0%Z.
(** sp_samples_set_gain, arrays.c:514-527. The result of sp_samples_absolute_max is converted to double *)
Definition samples_set_gain64 (input : list f64) (count : nat) (amp : f64) : option (list f64) :=
  in_max <- samples_absolute_max64 input count ;;
  let in_max := f_of_Z in_max in
  if Beqb fzero amp || Beqb fzero in_max then Some input
  else
    let difference := fdiv in_max amp in
    let correction := fadd (f_of_Z 1) (fdiv (fsub (f_of_Z 1) difference) difference) in
    for_ 0 count (fun i l => x <- aget l i ;; aset l i (fmul x correction)) input.
(** sp_samples_set_unity_gain, arrays.c:531 *)
Definition samples_set_unity_gain64 (input reference : list f64) (count : nat) : option (list f64) :=
  m <- samples_absolute_max64 reference count ;; samples_set_gain64 input count (f_of_Z m).
