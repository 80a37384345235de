(** Model of the allocation helpers (F/helper.c, F is /repo/source/c/foreign/sph-sc-lib/sph-sp) and of sample blocks (P/main.c).

    - A pointer is an address and an offset. Memory maps the addresses that are allocated to arrays.
    - Results of malloc and calloc are arguments.
    - [memory_id] is the status id for memory errors; in the code it is [sph_helper_status_id_memory]. *)
From Verif Require Import Base.

(** status_t and the macros of F/status.h:11-33 *)
Inductive status_group := group_undefined | group_sph.
Record status := { s_id : Z; s_group : status_group }.
Definition success : status := {| s_id := 0; s_group := group_undefined |}.
Definition is_failure (s : status) : bool := negb (s_id s =? 0)%Z.
(** the first enumeration constant, F/helper.h:7 *)
Definition sph_helper_status_id_memory : Z := 0.
Definition memory_error (memory_id : Z) : status := {| s_id := memory_id; s_group := group_sph |}.

(** sph_helper_primitive_malloc, _calloc and _realloc, F/helper.c:23-69. [a]: result of the C function; [result]: the value behind the pointer,
    [None] is uninitialised. *)
Definition helper_alloc {A : Type} (memory_id : Z) (a : option A) (result : option A) : status * option A :=
  match a with Some p => (success, Some p) | None => (memory_error memory_id, result) end.
(** sph_helper_primitive_malloc_string, F/helper.c:37-45. A string is the list of its bytes; [a]: the allocated bytes. *)
Definition helper_malloc_string (memory_id : Z) (a : option (list Z)) (length : nat) (result : option (list Z)) : option (status * option (list Z)) :=
  let '(st, p) := helper_alloc memory_id a None in
  if is_failure st then Some (st, result)
  else p <- p ;; p <- aset p length 0%Z ;; Some (st, Some p).

Section Blocks.
Variable V : Type.
Variable zero : V.

Record mem := { cells : nat -> option (list V); next : nat }.
Definition update (m : mem) (p : nat) (x : option (list V)) : mem := {| cells := fun q => if q =? p then x else cells m q; next := next m |}.
Definition alloc (m : mem) (x : list V) : nat * mem :=
  (next m, {| cells := fun q => if q =? next m then Some x else cells m q; next := S (next m) |}).
Definition pointer : Type := nat * nat.
Definition free (m : mem) (p : pointer) : option mem :=
  _ <- need (snd p =? 0) ;; _ <- cells m (fst p) ;; Some (update m (fst p) None).
Definition load (m : mem) (p : pointer) (i : nat) : option V := a <- cells m (fst p) ;; aget a (snd p + i).
Definition store (m : mem) (p : pointer) (i : nat) (x : V) : option mem :=
  a <- cells m (fst p) ;; a <- aset a (snd p + i) x ;; Some (update m (fst p) (Some a)).

(** sp_block_t, P/main.h:109-113; the array has sp_channel_count_limit = 2 elements, [None]: uninitialised *)
Record block := { b_size : nat; b_channels : nat; b_samples : list (option pointer) }.

(** sp_block_new, P/main.c:130-146 with memreg, F/memreg.h:13-30. [ok i]: the i-th calloc succeeds. *)
Fixpoint free_all (register : list pointer) (m : mem) : option mem :=
  match register with [] => Some m | p :: rest => m <- free m p ;; free_all rest m end.
Fixpoint new_loop (memory_id : Z) (ok : nat -> bool) (size n i : nat) (channel : option pointer) (register : list pointer) (samples : list (option pointer)) (m : mem)
  : option (status * list (option pointer) * mem) :=
  match n with
  | O => Some (success, samples, m)
  | S n =>
    let '(p, m1) := alloc m (repeat zero size) in
    let '(st, channel) := helper_alloc memory_id (if ok i then Some (p, 0) else None) channel in
    let m := if ok i then m1 else m in
    if is_failure st then
      m <- free_all register m ;; Some (st, samples, m)
    else
      c <- channel ;;
      samples <- aset samples i (Some c) ;;
      new_loop memory_id ok size n (S i) channel (c :: register) samples m
  end.
Definition block_new (memory_id : Z) (ok : nat -> bool) (channel_count size : nat) (out : block) (m : mem) : option (status * block * mem) :=
  '(st, samples, m) <- new_loop memory_id ok size channel_count 0 None [] (b_samples out) m ;;
  if is_failure st then Some (st, {| b_size := b_size out; b_channels := b_channels out; b_samples := samples |}, m)
  else Some (st, {| b_size := size; b_channels := channel_count; b_samples := samples |}, m).

Definition channel (b : block) (c : nat) : option pointer := p <- aget (b_samples b) c ;; p.
(** sp_block_free, P/main.c:147-153 *)
Definition block_free (b : block) (m : mem) : option mem :=
  if b_size b =? 0 then Some m
  else for_ 0 (b_channels b) (fun i m => p <- channel b i ;; free m p) m.
(** sp_block_with_offset, P/main.c:156-161 *)
Definition with_offset (b : block) (offset : nat) : option block :=
  samples <- for_ 0 (b_channels b) (fun i s =>
    p <- aget s i ;; p <- p ;; aset s i (Some (fst p, snd p + offset))) (b_samples b) ;;
  Some {| b_size := b_size b; b_channels := b_channels b; b_samples := samples |}.
(** sp_block_zero, P/main.c:162-166; sp_samples_zero is memset *)
Definition block_zero (b : block) (m : mem) : option mem :=
  for_ 0 (b_channels b) (fun c m => p <- channel b c ;; for_ 0 (b_size b) (fun i m => store m p i zero) m) m.
(** sp_block_copy, P/main.c:170-176 *)
Definition block_copy (a b : block) (m : mem) : option mem :=
  for_ 0 (b_channels a) (fun c m =>
    for_ 0 (b_size a) (fun i m =>
      p <- channel b c ;; q <- channel a c ;; x <- load m q i ;; store m p i x) m) m.
End Blocks.
