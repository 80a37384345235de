(** Shuffling, discrete random numbers, permutations and compositions.

    - Arrays are lists, access outside is [None]. Times are 32 bit words in Z.
    - The random number generator is a parameter [random]: state and bound to a number and the next state. In the code it is
      sp_time_random_bounded on the global random state; RandomModel.v models it. *)
From Verif Require Import Base MiscModel.

Section Random.
Context {St : Type} (random : St -> Z -> option (Z * St)).

(** sp_*_swap, /repo/source/c-precompiled/sph-sp/arrays-template.c:110-114 and sp_times_shuffle_swap, arrays.c:299-304.
    The elements are units of the type the C function uses: sp_time_t in the first, pointers in the second. *)
Definition swap {A : Type} (l : list A) (i j : nat) : option (list A) :=
  x <- aget l i ;; y <- aget l j ;; l <- aset l i y ;; aset l j x.
(** sp_shuffle, arrays.c:594-600 *)
Definition shuffle {A : Type} (l : list A) (count : nat) (st : St) : option (list A * St) :=
  for_ 0 count (fun i '(l, st) =>
    '(r, st) <- random st (Z.of_nat (count - i)) ;;
    l <- swap l i (i + Z.to_nat r) ;;
    Some (l, st)) (l, st).

(** the search loop in sp_time_random_discrete, arrays.c:47-55 *)
Fixpoint discrete_index (cudist : list Z) (deviate : Z) : nat :=
  match cudist with [] => 0 | c :: rest => if (deviate <? c)%Z then 0 else S (discrete_index rest deviate) end.
(** sp_time_random_discrete, arrays.c:47-55 *)
Definition random_discrete (cudist : list Z) (st : St) : option (nat * St) :=
  sum <- aget cudist (length cudist - 1) ;;
  '(deviate, st) <- random st sum ;;
  Some (discrete_index cudist deviate, st).
(** sp_times_random_discrete, arrays.c:33-46. When no element is found, out[i] is not written. *)
Definition times_random_discrete (cudist : list Z) (count : nat) (out : list Z) (st : St) : option (list Z * St) :=
  sum <- aget cudist (length cudist - 1) ;;
  for_ 0 count (fun i '(out, st) =>
    '(deviate, st) <- random st sum ;;
    let k := discrete_index cudist deviate in
    if k <? length cudist then out <- aset out i (Z.of_nat k) ;; Some (out, st) else Some (out, st)) (out, st).
(** sp_times_contains, arrays.c:324-331 *)
Fixpoint contains (l : list Z) (count : nat) (value : Z) : option bool :=
  match count with
  | O => Some false
  | S count => match l with [] => None | x :: l => if (value =? x)%Z then Some true else contains l count value end
  end.
(** sp_times_random_discrete_unique, arrays.c:334-347. [fuel] bounds the loop passes, [None] when it is used up. *)
Fixpoint discrete_unique_loop (fuel : nat) (cudist : list Z) (size remaining : nat) (out : list Z) (st : St) : option (list Z * St) :=
  match remaining with
  | O => Some (out, st)
  | S less =>
    match fuel with
    | O => None
    | S fuel =>
      '(a, st) <- random_discrete cudist st ;;
      c <- contains out (size - remaining) (Z.of_nat a) ;;
      if (c : bool) then discrete_unique_loop fuel cudist size remaining out st
      else out <- aset out (size - remaining) (Z.of_nat a) ;; discrete_unique_loop fuel cudist size less out st
    end
  end.
Definition random_discrete_unique (fuel : nat) (cudist : list Z) (size : nat) (out : list Z) (st : St) : option (list Z * St) :=
  discrete_unique_loop fuel cudist size (Nat.min size (length cudist)) out st.
End Random.

(** sp_times_permutations, arrays.c:67-126. Allocations succeed. Result: the rows and the caller's set after the call. The
    assertions are the sizes of temp_out ([size!] as sp_time_t) and of the arrays. The loop ends because s counts through
    all numbers in factorial base; [fuel] bounds it. *)
Fixpoint permutations_loop (fuel : nat) (size : nat) (limit : Z) (a : list Z) (s : list nat) (i : nat) (rows : list (list Z)) : option (list (list Z)) :=
  if i <? size then
    match fuel with
    | O => None
    | S fuel =>
      c <- aget s i ;;
      if c <? i then
        a <- (if Nat.odd i then swap a c i else swap a 0 i) ;;
        s <- aset s i (c + 1) ;;
        _ <- need (Z.of_nat (length rows) <? limit)%Z ;;
        permutations_loop fuel size limit a s 0 (rows ++ [a])
      else s <- aset s i 0 ;; permutations_loop fuel size limit a s (i + 1) rows
    end
  else Some rows.
Definition permutations (fuel : nat) (size : nat) (set : list Z) : option (list (list Z) * list Z) :=
  let a := repeat 0%Z size in
  let s := repeat 0 size in
  let limit := time_factorial size in
  _ <- need (0 <? limit)%Z ;;
  (* sp_times_copy(a, size, set) copies from a to set, sp_times_copy(b, size, a) from b to a *)
  set <- blit a 0 set 0 size ;;
  rows <- permutations_loop fuel size limit (repeat 0%Z size) s 0 [repeat 0%Z size] ;;
  Some (rows, set).

(** sp_times_compositions, arrays.c:142-200. Allocations succeed. Result: rows, each with its length. [o_size] limits the
    writes to o and o_sizes. *)
Fixpoint compositions_fill (fuel : nat) (a : list Z) (x y : Z) (k : nat) : option (list Z * Z * Z * nat) :=
  if (1 <=? y)%Z then
    match fuel with
    | O => None
    | S fuel => a <- aset a k x ;; compositions_fill fuel a 1%Z (u32 (y - 1)) (k + 1)
    end
  else Some (a, x, y, k).
Fixpoint compositions_loop (fuel : nat) (sum : nat) (o_size : Z) (a : list Z) (k : nat) (o : list (list Z)) : option (list (list Z)) :=
  match k with
  | O => Some o
  | S k1 =>
    match fuel with
    | O => None
    | S fuel =>
      p <- aget a k1 ;; q <- aget a k ;;
      '(a, x, y, k) <- compositions_fill (S sum) a (u32 (p + 1)) (u32 (q - 1)) k1 ;;
      a <- aset a k (u32 (x + y)) ;;
      b <- slice a 0 (k + 1) ;;
      _ <- need (Z.of_nat (length o) <? o_size)%Z ;;
      compositions_loop fuel sum o_size a k (o ++ [b])
    end
  end.
Definition compositions (fuel sum : nat) : option (list (list Z)) :=
  o_size <- time_expt 2 (u32 (Z.of_nat sum - 1)) ;;
  a <- aset (repeat 0%Z (1 + sum)) 1 (Z.of_nat sum) ;;
  compositions_loop fuel sum o_size a 1 [].
