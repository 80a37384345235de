(** Small numeric functions of /repo/source/c-precompiled/sph-sp/main.c and of the string library.

    - sp_time_t is uint32: [u32] after every operation that can wrap.
    - sp_sample_t is double. Where a function computes with samples it is modelled with exact rational numbers [Q]: finite
      doubles are rationals, comparison and negation are exact, the rounding of sums, products and quotients is left out.
    - conversion of a double to sp_time_t truncates; outside of the range of sp_time_t it is undefined ([None]). *)
From Verif Require Import Base.
From Coq Require Import QArith Qround Qminmax.
Open Scope nat_scope.

(** conversion from sp_sample_t to sp_time_t *)
Definition time_of (x : Q) : option Z :=
  if Qle_bool 0 x then if (Qfloor x <? two32)%Z then Some (Qfloor x) else None
  else if Qle_bool x (-1 # 1) then None else Some 0%Z.
(** sp_cheap_round_positive, /repo/source/c-precompiled/sph-sp/main.h:32 *)
Definition cheap_round (x : Q) : option Z := time_of ((1 # 2) + x).
(** sp_cheap_ceiling_positive, main.h:36 *)
Definition cheap_ceiling (x : Q) : option Z := f <- time_of x ;; Some (u32 (f + (if Qle_bool x (inject_Z f) then 0 else 1))).
Definition Qlt_bool (x y : Q) : bool := negb (Qle_bool y x).

(** sp_time_expt, main.c:530-543. [fuel]: loop passes; 32 suffice because exp loses a bit in each. *)
Fixpoint expt_loop (fuel : nat) (a base exp : Z) : option Z :=
  match fuel with
  | O => None
  | S fuel =>
    let a := if (Z.land exp 1 =? 0)%Z then a else u32 (a * base) in
    let exp := Z.shiftr exp 1 in
    if (exp =? 0)%Z then Some a else expt_loop fuel a (u32 (base * base)) exp
  end.
Definition time_expt (base exp : Z) : option Z := expt_loop 32 1 base exp.
(** sp_time_factorial, main.c:544-551 *)
Fixpoint factorial_loop (n : nat) (result : Z) : Z :=
  match n with O => result | S n' => factorial_loop n' (u32 (result * Z.of_nat n)) end.
Definition time_factorial (n : nat) : Z := factorial_loop n 1.
(** sp_set_sequence_max, main.c:554 *)
Definition set_sequence_max (set_size selection_size : Z) : option Z :=
  if (set_size =? 0)%Z then Some 0%Z else time_expt set_size selection_size.
(** sp_permutations_max, main.c:555. Division by zero is undefined. *)
Definition permutations_max (set_size selection_size : Z) : option Z :=
  let d := u32 (set_size - selection_size) in
  if (d =? 0)%Z then None else Some (time_factorial (Z.to_nat set_size) / d)%Z.
(** sp_compositions_max, main.c:556 *)
Definition compositions_max (sum : Z) : option Z := time_expt 2 (u32 (sum - 1)).

(** sp_phase, main.c:177-180 *)
Definition phase (current change cycle : Z) : option Z :=
  let a := u32 (current + change) in
  if (a <? cycle)%Z then Some a else if (cycle =? 0)%Z then None else Some (a mod cycle)%Z.
(** sp_phase_float, main.c:184-187 *)
Definition phase_float (current : Z) (change : Q) (cycle : Z) : option Z :=
  c <- cheap_ceiling change ;; phase current c cycle.
(** a caller that applies sp_phase (main.c:177-180) repeatedly with the result of the previous call *)
Fixpoint phases (current : Z) (changes : list Z) (cycle : Z) : option Z :=
  match changes with [] => Some current | c :: rest => p <- phase current c cycle ;; phases p rest cycle end.
(** sp_wave, main.c:198-210. [amod], [fmod] and [phs_state] are [None] for null pointers. Result: out, phase state *)
Section Wave.
Variables (V : Type) (add mul : V -> V -> V).
Definition optional_get {A} (array : option (list A)) (fixed : A) (i : nat) : option A :=
  match array with Some a => aget a i | None => Some fixed end.
Definition wave (size : nat) (wvf : list V) (wvf_size : Z) (amp : V) (amod : option (list V)) (frq : Z) (fmod : option (list Z))
  (phs_state : option Z) (out : list V) : option (list V * option Z) :=
  '(out, phs) <- for_ 0 size (fun i '(out, phs) =>
    a <- optional_get amod amp i ;;
    w <- aget wvf (Z.to_nat phs) ;;
    o <- aget out i ;;
    out <- aset out i (add o (mul (mul amp a) w)) ;;
    f <- optional_get fmod frq i ;;
    let phs := u32 (phs + f) in
    if (wvf_size <=? phs)%Z then if (wvf_size =? 0)%Z then None else Some (out, (phs mod wvf_size)%Z)
    else Some (out, phs)) (out, match phs_state with Some p => p | None => 0%Z end) ;;
  Some (out, match phs_state with Some _ => Some phs | None => None end).
End Wave.

(** sp_triangle, main.c:462-466 *)
Definition triangle (t a b : Z) : option Q :=
  if (u32 (a + b) =? 0)%Z then None
  else
    let remainder := (t mod u32 (a + b))%Z in
    Some (if (remainder <? a)%Z then inject_Z remainder * (1 / inject_Z a)
          else (inject_Z b - (inject_Z remainder - inject_Z a)) * (1 / inject_Z b))%Q.
(** sp_square, main.c:467 *)
Definition square (t size : Z) : option Z :=
  if (u32 (2 * size) =? 0)%Z then None else Some (if (u32 (2 * t) mod u32 (2 * size) <? size)%Z then -1 else 1)%Z.
(** sp_inline_limit, main.h:39 *)
Definition inline_limit (x min max : Q) : Q :=
  let y := if Qlt_bool max x then max else x in if Qlt_bool y min then min else y.
(** sp_pan_to_amp, main.c:476 *)
Definition pan_to_amp (value : Q) (channel : Z) : Q :=
  if Z.odd channel then (inline_limit value (inject_Z channel - 1) (inject_Z channel - (1 # 2)) / (1 # 2))%Q
  else (1 - (inline_limit value (inject_Z channel + (1 # 2)) (inject_Z channel + 1) - (1 # 2)) / (1 # 2))%Q.

(** sp_time_harmonize, main.c:490-494 *)
Definition harmonize (a base : Z) (amount : Q) : option Z :=
  if (base =? 0)%Z then None
  else
    let nearest := u32 (u32 (u32 (a + base) - 1) / base * base) in
    if (nearest <? a)%Z then time_of (inject_Z a - amount * inject_Z (u32 (a - nearest)))%Q
    else time_of (inject_Z a + amount * inject_Z (u32 (nearest - a)))%Q.

(** sp_time_round_to_multiple, /repo/source/c-precompiled/sph-sp/arrays-template.c:13 *)
Definition round_to_multiple (a base : Z) : option Z :=
  if (a =? 0)%Z then Some base
  else if (base =? 0)%Z then None (* division of a double by zero, conversion of infinity *)
  else cheap_round ((inject_Z a / inject_Z base) * inject_Z base)%Q.

(** sp_modulo_match, main.c:522-529. The early return is an option; an empty list returns SIZE_MAX, which is [None]. *)
Fixpoint modulo_match_loop (index : Z) (divisors : list Z) (i : nat) : option (option nat) :=
  match divisors with
  | [] => Some None
  | d :: rest =>
    if (d =? 0)%Z then None
    else if (index mod d =? 0)%Z then Some (Some i) else modulo_match_loop index rest (S i)
  end.
Definition modulo_match (index : Z) (divisors : list Z) : option nat :=
  r <- modulo_match_loop index divisors 0 ;;
  match r with
  | Some i => Some i
  | None => match divisors with [] => None | _ => Some (length divisors - 1) end
  end.

(** ** Strings, /repo/source/c/foreign/sph-sc-lib/sph-sp/string.h
    A string argument is memory that contains a zero byte. [junk n]: contents of n newly allocated bytes. *)
Section Strings.
Variable junk : nat -> list Z.
Fixpoint strlen (s : list Z) : option nat :=
  match s with [] => None | c :: s => if (c =? 0)%Z then Some 0 else n <- strlen s ;; Some (S n) end.
(** ensure_trailing_slash, string.h:7-23. Result: code, string *)
Definition ensure_trailing_slash (a : list Z) : option (Z * list Z) :=
  len <- strlen a ;;
  same <- (if len =? 0 then Some true else c <- aget a (len - 1) ;; Some (c =? 47)%Z) ;;
  if (same : bool) then Some (0%Z, a)
  else
    r <- blit a 0 (junk (2 + len)) 0 len ;;
    r <- aset r len 47%Z ;;
    r <- aset r 0 0%Z ;;
    Some (2%Z, r).
(** string_append, string.h:26-35 *)
Definition string_append (a b : list Z) : option (list Z) :=
  a_length <- strlen a ;;
  b_length <- strlen b ;;
  r <- blit a 0 (junk (1 + a_length + b_length)) 0 a_length ;;
  blit b 0 r a_length (1 + b_length).
(** string_clone, string.h:38-45 *)
Definition string_clone (a : list Z) : option (list Z) :=
  len <- strlen a ;;
  blit a 0 (junk (1 + len)) 0 (1 + len).
(** string_join, string.h:49-83. The null result for no strings is [Some None]. Result: bytes, result_len *)
Fixpoint join_size (strings : list (list Z)) (size : nat) : option nat :=
  match strings with [] => Some size | s :: rest => n <- strlen s ;; join_size rest (size + n) end.
Fixpoint join_loop (delimiter : list Z) (delimiter_len : nat) (strings : list (list Z)) (result : list Z) (pos : nat) : option (list Z) :=
  match strings with
  | [] => Some result
  | s :: rest =>
    result <- blit delimiter 0 result pos delimiter_len ;;
    n <- strlen s ;;
    result <- blit s 0 result (pos + delimiter_len) n ;;
    join_loop delimiter delimiter_len rest result (pos + delimiter_len + n)
  end.
Definition string_join (strings : list (list Z)) (delimiter : list Z) : option (option (list Z * nat)) :=
  match strings with
  | [] => Some None
  | s :: rest =>
    delimiter_len <- strlen delimiter ;;
    size <- join_size strings (1 + delimiter_len * (length strings - 1)) ;;
    n <- strlen s ;;
    result <- blit s 0 (junk size) 0 n ;;
    result <- join_loop delimiter delimiter_len rest result n ;;
    result <- aset result (size - 1) 0%Z ;;
    Some (Some (result, size - 1))
  end.
End Strings.
