(** Sorting and statistics: /repo/source/c/foreign/sph-sc-lib/sph-sp/quicksort.h (cited as quicksort.h) and
    /repo/source/c-precompiled/sph-sp/statistics.c.

    - The array of quicksort is part of a larger memory (a list). Indices are ssize_t and may leave the range that is sorted:
      they are numbers in Z and an access outside of the memory is [None]. *)
From Verif Require Import Base MiscModel ScaleModel.
From Coq Require Import QArith Qround Qabs.
Open Scope nat_scope.

Definition zget {A : Type} (a : list A) (i : Z) : option A := if (i <? 0)%Z then None else aget a (Z.to_nat i).
Definition zset {A : Type} (a : list A) (i : Z) (x : A) : option (list A) := if (i <? 0)%Z then None else aset a (Z.to_nat i) x.
(** sp_*_sort_swap, /repo/source/c-precompiled/sph-sp/arrays-template.c:4-9 *)
Definition zswap {A : Type} (a : list A) (i j : Z) : option (list A) :=
  x <- zget a i ;; y <- zget a j ;; a <- zset a i y ;; zset a j x.

Section Quicksort.
Variable A : Type.
(** sp_*_sort_less, arrays-template.c:10, or any other comparison of two elements *)
Variable less : A -> A -> bool.

(** while (less_p(array, l, pivot)), quicksort.h:16-18. [fuel]: passes; the index leaves the memory before it is used up. *)
Fixpoint scan_up (fuel : nat) (a : list A) (pivot l : Z) : option Z :=
  match fuel with
  | O => None
  | S fuel => x <- zget a l ;; y <- zget a pivot ;; if less x y then scan_up fuel a pivot (1 + l)%Z else Some l
  end.
(** while (less_p(array, pivot, r)), quicksort.h:19-21 *)
Fixpoint scan_down (fuel : nat) (a : list A) (pivot r : Z) : option Z :=
  match fuel with
  | O => None
  | S fuel => x <- zget a pivot ;; y <- zget a r ;; if less x y then scan_down fuel a pivot (r - 1)%Z else Some r
  end.
(** while (1), quicksort.h:15-33. Result: array, l, r *)
Fixpoint partition (fuel : nat) (a : list A) (pivot l r : Z) : option (list A * Z * Z) :=
  match fuel with
  | O => None
  | S fuel =>
    l <- scan_up (S (length a)) a pivot l ;;
    r <- scan_down (S (length a)) a pivot r ;;
    if (r <? l)%Z then Some (a, l, r)
    else
      let pivot := if (pivot =? l)%Z then r else if (pivot =? r)%Z then l else pivot in
      a <- zswap a l r ;;
      partition fuel a pivot (1 + l)%Z (r - 1)%Z
  end.
(** quicksort, quicksort.h:8-36. [fuel]: depth of the recursion *)
Fixpoint quicksort_rec (fuel : nat) (a : list A) (left right : Z) : option (list A) :=
  if (right <=? left)%Z then Some a
  else
    match fuel with
    | O => None
    | S fuel =>
      '(a, l, r) <- partition (S (length a)) a (left + (right - left) / 2)%Z left right ;;
      a <- quicksort_rec fuel a left r ;;
      quicksort_rec fuel a l right
    end.
Definition quicksort (a : list A) (left right : Z) : option (list A) := quicksort_rec (S (length a)) a left right.
End Quicksort.

(** define_sp_stat_median, statistics.c:80-91. The allocated temp is somewhere in the memory: [before] and [after] are around it.
    Index [size / 2 - 1] is an unsigned 32 bit number. Result: the value written to out *)
Definition median {V : Type} (less : V -> V -> bool) (single : V -> Q) (pair : V -> V -> Q) (before after a : list V) : option Q :=
  let size := length a in
  let base := Z.of_nat (length before) in
  memory <- quicksort V less (before ++ a ++ after) base (base + u32 (Z.of_nat size - 1))%Z ;;
  let low := u32 (Z.of_nat (size / 2) - 1) in
  if Nat.odd size then x <- zget memory (base + low)%Z ;; Some (single x)
  else x <- zget memory (base + Z.of_nat (size / 2))%Z ;; y <- zget memory (base + low)%Z ;; Some (pair x y).
(** sp_stat_times_median: the sum of two sp_time_t is one and wraps *)
Definition times_median : list Z -> list Z -> list Z -> option Q :=
  median Z.ltb inject_Z (fun x y => inject_Z (u32 (x + y)) / 2)%Q.
(** sp_stat_samples_median *)
Definition samples_median : list Q -> list Q -> list Q -> option Q := median Qlt_bool (fun x => x) (fun x y => (x + y) / 2)%Q.

(** define_sp_stat_range, statistics.c:2-24. Result: min, max, range *)
Definition stat_range {V : Type} (lt : V -> V -> bool) (a : list V) (size : nat) : option (V * V) :=
  first <- aget a 0 ;;
  for_ 0 size (fun i '(min, max) =>
    b <- aget a i ;;
    Some (if lt max b then (min, b) else if lt b min then (b, max) else (min, max))) (first, first).
Definition times_range (a : list Z) (size : nat) : option (Q * Q * Q) :=
  '(min, max) <- stat_range Z.ltb a size ;; Some (inject_Z min, inject_Z max, inject_Z (u32 (max - min))).
Definition samples_range (a : list Q) (size : nat) : option (Q * Q * Q) :=
  '(min, max) <- stat_range Qlt_bool a size ;; Some (min, max, (max - min)%Q).
(** sp_stat_times_mean, statistics.c:159-167 *)
Definition times_mean (a : list Z) (size : nat) : option Q := s <- sum_times a size ;; Some (inject_Z s / inject_Z (Z.of_nat size))%Q.
(** sp_stat_samples_mean, statistics.c:202-205 *)
Definition samples_mean (a : list Q) (size : nat) : option Q := s <- f64_sum a size ;; Some (s / inject_Z (Z.of_nat size))%Q.
(** sp_stat_times_center, statistics.c:146-157 *)
Definition times_center (a : list Z) (size : nat) : option Q :=
  first <- aget a 0 ;;
  '(sum, index_sum) <- for_ 0 size (fun i '(sum, index_sum) =>
    x <- aget a i ;; Some (u32 (sum + x), u32 (index_sum + u32 (Z.of_nat i * x)))) (first, 0%Z) ;;
  Some (inject_Z index_sum / inject_Z sum)%Q.
(** sp_stat_samples_center, statistics.c:174-184 *)
Definition samples_center (a : list Q) (size : nat) : option Q :=
  sum <- f64_sum a size ;;
  index_sum <- for_ 0 size (fun i s => x <- aget a i ;; Some (s + inject_Z (Z.of_nat i) * x)%Q) 0%Q ;;
  Some (index_sum / sum)%Q.
(** define_sp_stat_deviation, statistics.c:25-39, before the square root. [mean]: what stat_mean wrote *)
Definition deviation_squared (mean : Q) (a : list Q) (size : nat) : option Q :=
  sum <- for_ 0 size (fun i sum => x <- aget a i ;; let dev := (x - mean)%Q in Some (sum + dev * dev)%Q) 0%Q ;;
  Some (sum / inject_Z (Z.of_nat size))%Q.
(** define_sp_stat_skewness, statistics.c:40-59: the result is the first number divided by the square root of the second *)
Definition skewness_parts (mean : Q) (a : list Q) (size : nat) : option (Q * Q) :=
  '(m2, m3) <- for_ 0 size (fun i '(m2, m3) => x <- aget a i ;; let b := (x - mean)%Q in Some (m2 + b * b, m3 + b * b * b)%Q) (0%Q, 0%Q) ;;
  let m3 := (m3 / inject_Z (Z.of_nat size))%Q in
  let m2 := (m2 / inject_Z (Z.of_nat size))%Q in
  Some (m3, (m2 * m2 * m2)%Q).
(** define_sp_stat_kurtosis, statistics.c:60-79 *)
Definition kurtosis (mean : Q) (a : list Q) (size : nat) : option Q :=
  '(m2, m4) <- for_ 0 size (fun i '(m2, m4) => x <- aget a i ;; let b := (x - mean)%Q in Some (m2 + b * b, m4 + b * b * b * b)%Q) (0%Q, 0%Q) ;;
  let m4 := (m4 / inject_Z (Z.of_nat size))%Q in
  let m2 := (m2 / inject_Z (Z.of_nat size))%Q in
  Some (m4 / (m2 * m2))%Q.
(** sp_samples_scale_to_times, statistics.c:192-201 *)
Definition scale_to_times (a : list Q) (size : nat) (max : Z) (out : list Z) : option (list Z) :=
  '(low, high, range) <- samples_range a size ;;
  let addition := if Qlt_bool low 0 then Qabs low else 0%Q in
  if Qeq_bool range 0 then None
  else for_ 0 size (fun i out => x <- aget a i ;; v <- cheap_round ((x + addition) * (inject_Z max / range))%Q ;; aset out i v) out.
(** sp_stat_unique_max, statistics.c:123 *)
Definition unique_max (size width : Z) : Z := u32 (size - u32 (width - 1)).
(** sp_stat_unique_all_max, statistics.c:127-137. [fuel]: passes *)
Fixpoint unique_all_loop (fuel : nat) (size width result : Z) : option Z :=
  match fuel with
  | O => None
  | S fuel => if (width <=? size)%Z then unique_all_loop fuel size (u32 (width + 1)) (u32 (result + u32 (size - u32 (width - 1)))) else Some result
  end.
Definition unique_all_max (fuel : nat) (size : Z) : option Z := unique_all_loop fuel size 1 0.
(** sp_stat_repetition_all_max, sp_stat_repetition_max, statistics.c:138-139 *)
Definition repetition_all_max (fuel : nat) (size : Z) : option Z := u <- unique_all_max fuel size ;; Some (u32 (u - size)).
Definition repetition_max (size width : Z) : Z := u32 (unique_max size width - 1).
(** define_sp_stat_inharmonicity, statistics.c:92-119, over rationals *)
Definition inharmonicity (a : list Q) (size : nat) : option Q :=
  for_ 0 size (fun i min =>
    y <- aget a i ;;
    _ <- need (negb (Qeq_bool y 0)) ;;
    sum <- for_ 0 size (fun i2 sum =>
      x <- aget a i2 ;;
      let b := (x / y)%Q in
      f <- time_of b ;;
      let b := (b - inject_Z f)%Q in
      Some (sum + (if Qle_bool b (1 # 2) then b else 1 - b))%Q) 0%Q ;;
    let sum := (sum / inject_Z (Z.of_nat size))%Q in
    Some (if Qlt_bool sum min then sum else min)) (inject_Z (Z.of_nat size)).
