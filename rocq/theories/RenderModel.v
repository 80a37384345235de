(** Model of sp_render_range_file and sp_render_range_block, P/main.c. A frame is a function from channel to sample. *)
From Verif Require Import Base SeqModel FileModel.

Section Render.
Variables (V D : Type).
Notation frame := (nat -> V).
Variable zero : V.
Variable narrow : V -> Z.
Variable prepare : event D -> option (event D).
Variable generate : nat -> nat -> list frame -> event D -> option (list frame * event D * bool).
(** contents of memory from malloc in sp_file_write, and of the header array *)
Variable junk : nat -> list Z.

(** block.samples: one array for each channel *)
Definition channels (cc : nat) (block : list frame) : list (list V) := map (fun c => map (fun fr => fr c) block) (seq 0 cc).
(** sp_block_new zeroes the block, main.c:130-146; allocations succeed *)
Definition silence (size : nat) : list frame := repeat (fun _ => zero) size.
Definition duration (start end_ : nat) : nat := Z.to_nat (u32 (Z.of_nat end_ - Z.of_nat start)).

(** the loop main.c:348-355, [n]: number of iterations; the block is zeroed at the end of each. The printed progress is left out. *)
Fixpoint render_loop (cc bs n i : nat) (f : file) (head : option nat) (h : heap D) : option (bool * file * option nat * heap D) :=
  match n with
  | O => Some (true, f, head, h)
  | S n =>
    r <- sp_seq frame D prepare generate i (i + bs) (silence bs) head h ;;
    if sr_ok _ _ r then
      '(st, f) <- file_write V narrow true None junk f (channels cc (sr_out _ _ r)) bs ;;
      if (st =? status_success)%Z then render_loop cc bs n (i + bs) f (sr_head _ _ r) (sr_heap _ _ r) else Some (false, f, sr_head _ _ r, sr_heap _ _ r)
    else Some (false, f, sr_head _ _ r, sr_heap _ _ r)
  end.
(** sp_render_range_file, main.c:334-364: success, the bytes of the file and the remaining elements of event lists. Opening and writing succeed.
    Note that the loop starts at 0 and that [start] only matters for the duration. *)
Definition render_range_file (e : event D) (start end_ cc : nat) (rate : Z) (bs : nat) (h : heap D) : option (bool * list Z * heap D) :=
  '(_, head, h) <- list_add D true None e h ;;
  '(_, f) <- open_write true 0 None (junk 40) cc rate ;;
  f <- f ;;
  _ <- need (negb (bs =? 0)) ;;
  let remainder := duration start end_ mod bs in
  let n := duration start end_ / bs in
  '(ok, f, head, h) <- render_loop cc bs n 0 f head h ;;
  if (ok : bool) then
    if remainder =? 0 then
      '(h, _) <- list_free D (fuel D h) head h ;; Some (true, close_write None None f, h)
    else
      r <- sp_seq frame D prepare generate (n * bs) (n * bs + remainder) (silence bs) head h ;;
      if sr_ok _ _ r then
        '(st, f) <- file_write V narrow true None junk f (channels cc (sr_out _ _ r)) remainder ;;
        if (st =? status_success)%Z then
          '(h, _) <- list_free D (fuel D (sr_heap _ _ r)) (sr_head _ _ r) (sr_heap _ _ r) ;; Some (true, close_write None None f, h)
        else Some (false, close_write None None f, sr_heap _ _ r)
      else Some (false, close_write None None f, sr_heap _ _ r)
  else Some (false, close_write None None f, h).

(** sp_render_range_block, main.c:369-381 *)
Definition render_range_block (e : event D) (start end_ : nat) (h : heap D) : option (bool * list frame * heap D) :=
  '(_, head, h) <- list_add D true None e h ;;
  r <- sp_seq frame D prepare generate start end_ (silence (duration start end_)) head h ;;
  if sr_ok _ _ r then
    '(h, _) <- list_free D (fuel D (sr_heap _ _ r)) (sr_head _ _ r) (sr_heap _ _ r) ;; Some (true, sr_out _ _ r, h)
  else Some (false, sr_out _ _ r, sr_heap _ _ r).
End Render.
