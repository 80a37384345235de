(** Array functions that exist for times and for samples.

    - Memory is one flat list of values, a pointer is an index into it. Arrays passed to one function may therefore be the
      same or overlap. Access outside of the memory is [None].
    - Sizes and indices are [nat]; the C type is uint32, no index computation of these functions wraps when the arrays fit
      into memory.
    - [V] is the element type. For times it is Z with 32 bit arithmetic ([t_add] etc. below), for samples any type with
      the operations of the floating point unit. Division by zero is undefined for times ([div] gives [None]). *)
From Verif Require Import Base.

Section Arr.
Variable V : Type.
Variable zero : V.
Variables (add mul sub : V -> V -> V) (div : V -> V -> option V) (lt : V -> V -> bool) (eq : V -> V -> bool).
Notation memory := (list V).

(** sp_*_min, /repo/source/c-precompiled/sph-sp/arrays-template.c:16-24 *)
Definition arr_min (m : memory) (p count : nat) : option V :=
  x <- aget m p ;; for_ 1 count (fun i out => y <- aget m (p + i) ;; Some (if lt y out then y else out)) x.
(** sp_*_max, arrays-template.c:27-35 *)
Definition arr_max (m : memory) (p count : nat) : option V :=
  x <- aget m p ;; for_ 1 count (fun i out => y <- aget m (p + i) ;; Some (if lt out y then y else out)) x.
(** sp_*_reverse, arrays-template.c:50-54 *)
Definition arr_reverse (m : memory) (in_ count out : nat) : option memory :=
  for_ 0 count (fun i m => x <- aget m (in_ + i) ;; aset m (out + (count - i)) x) m.
(** sp_*_equal, arrays-template.c:55-62. The early return is a flag. *)
Definition arr_equal (m : memory) (p count : nat) (value : V) : option bool :=
  for_ 0 count (fun i r => if (r : bool) then x <- aget m (p + i) ;; Some (eq value x) else Some false) true.
(** sp_*_square, arrays-template.c:63-67 *)
Definition arr_square (m : memory) (p count : nat) : option memory :=
  for_ 0 count (fun i m => x <- aget m (p + i) ;; aset m (p + i) (mul x x)) m.
(** sp_*_add, arrays-template.c:68-72 *)
Definition arr_add (m : memory) (p count : nat) (value : V) : option memory :=
  for_ 0 count (fun i m => x <- aget m (p + i) ;; aset m (p + i) (add x value)) m.
(** sp_*_multiply, arrays-template.c:73-77 *)
Definition arr_multiply (m : memory) (p count : nat) (value : V) : option memory :=
  for_ 0 count (fun i m => x <- aget m (p + i) ;; aset m (p + i) (mul x value)) m.
(** sp_*_divide, arrays-template.c:78-82 *)
Definition arr_divide (m : memory) (p count : nat) (value : V) : option memory :=
  for_ 0 count (fun i m => x <- aget m (p + i) ;; y <- div x value ;; aset m (p + i) y) m.
(** sp_*_set, arrays-template.c:83-87 *)
Definition arr_set (m : memory) (p count : nat) (value : V) : option memory :=
  for_ 0 count (fun i m => aset m (p + i) value) m.
(** sp_*_subtract, arrays-template.c:88-92 *)
Definition arr_subtract (m : memory) (p count : nat) (value : V) : option memory :=
  for_ 0 count (fun i m => x <- aget m (p + i) ;; aset m (p + i) (sub x value)) m.
(** sp_*_copy, arrays-template.c:94-98 *)
Definition arr_copy (m : memory) (in_ count out : nat) : option memory :=
  for_ 0 count (fun i m => x <- aget m (in_ + i) ;; aset m (out + i) x) m.
(** sp_*_cusum, arrays-template.c:102-109 *)
Definition arr_cusum (m : memory) (in_ count out : nat) : option memory :=
  x <- aget m in_ ;;
  m <- aset m out x ;;
  '(_, m) <- for_ 1 count (fun i '(sum, m) => x <- aget m (in_ + i) ;; m <- aset m (out + i) (add sum x) ;; Some (add sum x, m)) (x, m) ;;
  Some m.
(** sp_*_swap, arrays-template.c:110-114. For samples the C function takes a pointer to times and exchanges 32 bit units;
    that instance is not modelled. *)
Definition arr_swap (m : memory) (p i1 i2 : nat) : option memory :=
  x <- aget m (p + i1) ;; y <- aget m (p + i2) ;; m <- aset m (p + i1) y ;; aset m (p + i2) x.
(** sp_*_additions, arrays-template.c:128-132 *)
Definition arr_additions (start summand : V) (count : nat) (m : memory) (out : nat) : option memory :=
  '(_, m) <- for_ 0 count (fun i '(start, m) => m <- aset m (out + i) start ;; Some (add start summand, m)) (start, m) ;; Some m.
(** sp_*_range, arrays-template.c:144-148. [end - start] wraps around if end is less than start; that is [None] here. *)
Definition arr_range (m : memory) (in_ start end_ out : nat) : option memory :=
  _ <- need (start <=? end_) ;;
  for_ 0 (end_ - start) (fun i m => x <- aget m (in_ + (start + i)) ;; aset m (out + i) x) m.
(** sp_*_and_*, arrays-template.c:151-159 *)
Definition arr_and (m : memory) (a b count : nat) (limit : V) (out : nat) : option memory :=
  for_ 0 count (fun i m =>
    x <- aget m (a + i) ;;
    if negb (lt x limit) && negb (lt x limit) then y <- aget m (b + i) ;; aset m (out + i) y
    else aset m (out + i) zero) m.
(** sp_*_or_*, arrays-template.c:162-174 *)
Definition arr_or (m : memory) (a b count : nat) (limit : V) (out : nat) : option memory :=
  for_ 0 count (fun i m =>
    x <- aget m (a + i) ;;
    if lt x limit then
      y <- aget m (b + i) ;; if lt y limit then aset m (out + i) x else aset m (out + i) y
    else aset m (out + i) x) m.
(** sp_*_xor_*, arrays-template.c:177-193 *)
Definition arr_xor (m : memory) (a b count : nat) (limit : V) (out : nat) : option memory :=
  for_ 0 count (fun i m =>
    x <- aget m (a + i) ;; y <- aget m (b + i) ;;
    if negb (lt x limit) && negb (lt y limit) then aset m (out + i) zero
    else if lt x limit then if lt y limit then aset m (out + i) x else aset m (out + i) y
    else aset m (out + i) x) m.
(** sp_*_multiply_*, arrays-template.c:194-198 *)
Definition arr_multiply_pair (m : memory) (p count in_ : nat) : option memory :=
  for_ 0 count (fun i m => x <- aget m (p + i) ;; y <- aget m (in_ + i) ;; aset m (p + i) (mul x y)) m.
(** sp_*_divide_*, arrays-template.c:199-203 *)
Definition arr_divide_pair (m : memory) (p count in_ : nat) : option memory :=
  for_ 0 count (fun i m => x <- aget m (p + i) ;; y <- aget m (in_ + i) ;; z <- div x y ;; aset m (p + i) z) m.
(** sp_*_add_*, arrays-template.c:204-208 *)
Definition arr_add_pair (m : memory) (p count in_ : nat) : option memory :=
  for_ 0 count (fun i m => x <- aget m (p + i) ;; y <- aget m (in_ + i) ;; aset m (p + i) (add x y)) m.
(** sp_*_subtract_*, arrays-template.c:209-213 *)
Definition arr_subtract_pair (m : memory) (p count in_ : nat) : option memory :=
  for_ 0 count (fun i m => x <- aget m (p + i) ;; y <- aget m (in_ + i) ;; aset m (p + i) (sub x y)) m.
(** sp_samples_differences, /repo/source/c-precompiled/sph-sp/arrays.c:536-540 *)
Definition arr_differences (m : memory) (a count out : nat) : option memory :=
  for_ 1 count (fun i m => x <- aget m (a + i) ;; y <- aget m (a + (i - 1)) ;; aset m (out + (i - 1)) (sub x y)) m.
End Arr.

(** operations on times: uint32 arithmetic; sp_inline_no_underflow_subtract, /repo/source/c-precompiled/sph-sp/main.h:49 *)
Definition t_add (x y : Z) : Z := u32 (x + y).
Definition t_mul (x y : Z) : Z := u32 (x * y).
Definition t_sub (x y : Z) : Z := if (y <? x)%Z then u32 (x - y) else 0%Z.
Definition t_div (x y : Z) : option Z := if (y =? 0)%Z then None else Some (x / y)%Z.

(** sp_times_limit, arrays.c:415-419 *)
Definition times_limit (m : list Z) (a count : nat) (n : Z) (out : nat) : option (list Z) :=
  for_ 0 count (fun i m => x <- aget m (a + i) ;; aset m (out + i) (if (n <? x)%Z then n else x)) m.
(** sp_times_extract_in_range, arrays.c:374-382. Result: memory, out_size *)
Definition times_extract_in_range (m : list Z) (a size : nat) (min max : Z) (out : nat) : option (list Z * nat) :=
  for_ 0 size (fun i '(m, n) =>
    x <- aget m (a + i) ;;
    if ((x <=? max) || (min <=? x))%Z then m <- aset m (out + i) x ;; Some (m, S n) else Some (m, n)) (m, 0).
(** sp_time_sum and sp_times_sum, which are the same, arrays.c:5-19 *)
Definition times_sum (m : list Z) (a size : nat) : option Z :=
  for_ 0 size (fun i s => x <- aget m (a + i) ;; Some (t_add s x)) 0%Z.
(** sp_times_contains, arrays.c:324-331 *)
Definition times_contains (m : list Z) (p count : nat) (value : Z) : option bool :=
  for_ 0 count (fun i r => if (r : bool) then Some true else x <- aget m (p + i) ;; Some (value =? x)%Z) false.
(** sp_times_select, arrays.c:204-208 *)
Definition times_select (m : list Z) (in_ indices count out : nat) : option (list Z) :=
  for_ 0 count (fun i m => k <- aget m (indices + i) ;; x <- aget m (in_ + Z.to_nat k) ;; aset m (out + i) x) m.
(** sp_times_bits_to_times, arrays.c:212-230. The two nested loops as one step function; [fuel] bounds the steps. *)
Fixpoint bits_loop (fuel : nat) (a size out : nat) (i a_i bits_i : nat) (mask : Z) (m : list Z) : option (list Z) :=
  match fuel with
  | O => None
  | S fuel =>
    if i <? size then
      if bits_i <? 32 then
        x <- aget m (a + a_i) ;;
        m <- aset m (out + i) (if (Z.land x mask =? 0)%Z then 0 else 1)%Z ;;
        bits_loop fuel a size out (S i) a_i (S bits_i) (u32 (Z.shiftl mask 1)) m
      else bits_loop fuel a size out i (S a_i) 0 1 m
    else Some m
  end.
Definition times_bits_to_times (m : list Z) (a size out : nat) : option (list Z) :=
  bits_loop (2 * size + 1) a size out 0 0 0 1 m.
(** sp_times_random_binary, arrays.c:233-244. [random]: the words that sp_times_random delivers, with their number as
    argument. The temporary array is appended to the memory while it is allocated. *)
Definition random_binary_size (size : nat) : nat := if size <? 32 then 1 else size / 32 + 1.
Definition times_random_binary (random : nat -> list Z) (m : list Z) (size out : nat) : option (list Z) :=
  let n := random_binary_size size in
  let temp := random n in
  _ <- need (length temp =? n) ;;
  r <- times_bits_to_times (m ++ temp) (length m) size out ;;
  Some (firstn (length m) r).
(** sp_times_gt_indices, arrays.c:248-257. Result: memory, out_size *)
Definition times_gt_indices (m : list Z) (a size : nat) (n : Z) (out : nat) : option (list Z * nat) :=
  for_ 0 size (fun i '(m, i2) =>
    x <- aget m (a + i) ;;
    if (n <? x)%Z then m <- aset m (out + i2) (Z.of_nat i) ;; Some (m, S i2) else Some (m, i2)) (m, 0).
(** sp_times_select_random, arrays.c:262-266 *)
Definition times_select_random (random : nat -> list Z) (m : list Z) (a size out : nat) : option (list Z * nat) :=
  m <- times_random_binary random m size out ;;
  '(m, n) <- times_gt_indices m out size 0 out ;;
  m <- times_select m a out n out ;;
  Some (m, n).

(** memcpy between ranges of the memory; overlapping ranges are undefined *)
Definition mem_copy (m : list Z) (to from n : nat) : option (list Z) :=
  _ <- need ((to + n <=? from) || (from + n <=? to) || (n =? 0)) ;;
  blit m from m to n.
(** sp_times_remove, arrays.c:429-438. A size that wraps below zero is [None]. *)
Definition times_remove (m : list Z) (in_ size index count out : nat) : option (list Z) :=
  if index =? 0 then
    _ <- need (count <=? size) ;; mem_copy m out (in_ + count) (size - count)
  else if size - 1 =? index then
    _ <- need (count <=? size) ;; mem_copy m out in_ (size - count)
  else
    m <- mem_copy m out in_ index ;;
    _ <- need (index + count <=? size) ;;
    mem_copy m (out + index) (in_ + index + count) (size - index - count).
(** sp_times_insert_space, arrays.c:441-448 *)
Definition times_insert_space (m : list Z) (in_ size index count out : nat) : option (list Z) :=
  if index =? 0 then mem_copy m (out + count) in_ size
  else
    m <- mem_copy m out in_ index ;;
    _ <- need (index <=? size) ;;
    mem_copy m (out + index + count) (in_ + index) (size - index).
(** sp_times_subdivide_difference, arrays.c:455-465 *)
Definition times_subdivide_difference (m : list Z) (a size index count out : nat) : option (list Z) :=
  m <- times_insert_space m a size (index + 1) count out ;;
  x <- aget m (a + (index + 1)) ;;
  y <- aget m (a + index) ;;
  let interval := u32 (x - y) in
  v <- t_div interval (u32 (Z.of_nat (count + 1))) ;;
  for_ (index + 1) (index + (count + 1)) (fun i m => x <- aget m (out + (i - 1)) ;; aset m (out + i) (t_add x v)) m.

(** sp_times_sequence_increment, arrays.c:129-138. The [break] is a flag. [set_size - 1] wraps for 0. *)
Definition sequence_increment (m : list Z) (p size : nat) (set_size : Z) : option (list Z) :=
  '(_, m) <- for_ 0 size (fun i '(stop, m) =>
    if (stop : bool) then Some (true, m)
    else
      x <- aget m (p + i) ;;
      if (x <? u32 (set_size - 1))%Z then m <- aset m (p + i) (t_add x 1) ;; Some (true, m)
      else m <- aset m (p + i) 0%Z ;; Some (false, m)) (false, m) ;;
  Some m.
(** sp_times_sequences, arrays.c:351-357. [i] runs over digits * k for k from 1; for zero digits the loop has no step. *)
Definition times_sequences (base : Z) (digits set_size : nat) (m : list Z) (out : nat) : option (list Z) :=
  if digits =? 0 then Some m
  else for_ 1 set_size (fun k m =>
    m <- mem_copy m (out + digits * k) (out + (digits * k - digits)) digits ;;
    sequence_increment m (out + digits * k) digits base) m.
