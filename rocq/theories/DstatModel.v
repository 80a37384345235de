(** Statistics with doubles: /repo/source/c-precompiled/sph-sp/statistics.c:2-39, 185-206, for samples.
    The operations round as in DblModel.v. sqrt rounds to nearest, as IEEE 754 requires. [None] is undefined behaviour. *)
From Coq Require Import ZArith Bool.
From Flocq Require Import BinarySingleNaN.
From Verif Require Import Base DblModel SortModel.
Open Scope nat_scope.

Definition fsqrt (a : f64) : f64 := Bsqrt mode_NE a.
Definition fabs64 (a : f64) : f64 := Babs a.
(** sp_stat_samples_range, statistics.c:2-24 and 185. Result: min, max, range *)
Definition samples_range64 (a : list f64) (size : nat) : option (f64 * f64 * f64) :=
  '(min, max) <- stat_range flt a size ;; Some (min, max, fsub max min).
(** sp_stat_samples_mean, statistics.c:202-205. size is converted to double *)
Definition samples_mean64 (a : list f64) (size : nat) : option f64 := s <- sum64 a size ;; Some (fdiv s (f_of_Z (Z.of_nat size))).
(** sp_stat_samples_deviation, statistics.c:25-39 and 206 *)
Definition samples_deviation64 (a : list f64) (size : nat) : option f64 :=
  mean <- samples_mean64 a size ;;
  sum <- for_ 0 size (fun i sum => x <- aget a i ;; let dev := fsub x mean in Some (fadd sum (fmul dev dev))) fzero ;;
  Some (fsqrt (fdiv sum (f_of_Z (Z.of_nat size)))).
(** sp_samples_scale_to_times, statistics.c:188-201. max is converted to double *)
Definition scale_to_times64 (a : list f64) (size : nat) (max : Z) (out : list Z) : option (list Z) :=
  '(low, high, range) <- samples_range64 a size ;;
  let addition := if flt low fzero then fabs64 low else fzero in
  for_ 0 size (fun i out => x <- aget a i ;; v <- cheap_round64 (fmul (fadd x addition) (fdiv (f_of_Z max) range)) ;; aset out i v) out.
