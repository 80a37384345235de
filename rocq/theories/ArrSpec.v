(** What the array functions are to do. *)
From Verif Require Import Base.

(** the memory with the elements from [p] on replaced by [xs] and everything else unchanged *)
Definition replace {A : Type} (m : list A) (p : nat) (xs : list A) : list A :=
  firstn p m ++ xs ++ skipn (p + length xs) m.

(** An array of length [n] at [input] that is read from front to back while an output at [output] is written from front
    to back: the output is the same array, lies in front of the input, or does not overlap it. *)
Definition readable (input output n : nat) : Prop := output <= input \/ input + n <= output.
(** no overlap *)
Definition disjoint (p n q k : nat) : Prop := p + n <= q \/ q + k <= p.

(** pairwise combination *)
Definition map2 {A B C : Type} (f : A -> B -> C) (a : list A) (b : list B) : list C :=
  map (fun x => f (fst x) (snd x)) (combine a b).

(** all sums of the first elements, from left to right: x0, x0 + x1, (x0 + x1) + x2, ... *)
Definition sums {A : Type} (add : A -> A -> A) (x0 : A) (rest : list A) : list A :=
  map (fun i => fold_left add (firstn i rest) x0) (seq 0 (S (length rest))).
(** x1 - x0, x2 - x1, ... *)
Fixpoint differences {A : Type} (sub : A -> A -> A) (x0 : A) (rest : list A) : list A :=
  match rest with [] => [] | x1 :: rest => sub x1 x0 :: differences sub x1 rest end.

(** and/or/xor by a limit; [lt] is the order *)
Definition and_spec {A} (zero : A) (lt : A -> A -> bool) (limit a b : A) : A :=
  if negb (lt a limit) && negb (lt b limit) then b else zero.
Definition or_spec {A} (lt : A -> A -> bool) (limit a b : A) : A :=
  if lt a limit && negb (lt b limit) then b else a.
Definition xor_spec {A} (zero : A) (lt : A -> A -> bool) (limit a b : A) : A :=
  if negb (lt a limit) && negb (lt b limit) then zero else if negb (lt b limit) then b else a.

(** values of a list of 32 bit words *)
Definition word (x : Z) : Prop := (0 <= x < two32)%Z.
(** bit [i] of the little endian bit string formed by words *)
Definition bit_of (words : list Z) (i : nat) : Z := Z.b2z (Z.testbit (nth (i / 32) words 0%Z) (Z.of_nat (i mod 32))).
(** number of words that hold [size] bits *)
Definition words_of_bits (size : nat) : nat := (size + 31) / 32.
(** the indices of the elements greater than [n], ascending *)
Definition indices_above (n : Z) (l : list Z) : list Z :=
  map Z.of_nat (filter (fun i => (n <? nth i l 0)%Z) (seq 0 (length l))).
(** the elements of [l] at the positions where a bit is set *)
Definition select_set (words l : list Z) : list Z :=
  map snd (filter (fun x => (bit_of words (fst x) =? 1)%Z) (combine (seq 0 (length l)) l)).
(** [count] elements less, from [index] on *)
Definition removed (l : list Z) (index count : nat) : list Z := firstn index l ++ skipn (index + count) l.
(** [count] values after [index], each [step] more than the one before *)
Definition subdivided (l : list Z) (index count : nat) : list Z :=
  let first := nth index l 0%Z in
  let step := ((nth (index + 1) l 0 - first) / Z.of_nat (count + 1))%Z in
  firstn (index + 1) l ++ map (fun k => first + Z.of_nat k * step)%Z (seq 1 count) ++ skipn (index + 1) l.

(** number written with digits in little endian order *)
Fixpoint number (base : Z) (digits : list Z) : Z :=
  match digits with [] => 0 | d :: rest => d + base * number base rest end%Z.
Definition digit (base d : Z) : Prop := (0 <= d < base)%Z.
