(** Model of sp_render_range_file with failures of the file system, and of sp_render_file, P/main.c. See also RenderModel.v. *)
From Verif Require Import Base SeqModel FileModel RenderModel.

(** the stream of a sp_file_t: fopen returned null, the stream has been closed, or it is open *)
Inductive handle := Null | Closed | Open (f : file).

Section Render.
Variables (V D : Type).
Notation frame := (nat -> V).
Variable zero : V.
Variable narrow : V -> Z.
Variable prepare : event D -> option (event D).
Variable generate : nat -> nat -> list frame -> event D -> option (list frame * event D * bool).
Variable junk : nat -> list Z.
(** [opened]: fopen succeeds. [errno]: the error number otherwise. [header_fault], [write_fault k]: a fault in writing the header or block number k *)
Variable opened : bool.
Variable errno : Z.
Variable header_fault : option nat.
Variable write_fault : nat -> option nat.

(** sp_file_open_write, file.c:8-35: status and stream. The stream is closed if the header cannot be written *)
Definition open_handle (cc : nat) (rate : Z) : option (Z * handle) :=
  '(status, f) <- open_write opened errno header_fault (junk 40) cc rate ;;
  Some (status, match f with Some f => Open f | None => if opened then Closed else Null end).
(** sp_file_close_write, file.c:36-44: fseek, fwrite and fclose need an open stream *)
Definition close_handle (f : handle) : option (list Z) := match f with Open f => Some (close_write None None f) | _ => None end.

(** the loop main.c:348-355, [k]: number of the block *)
Fixpoint render_loop_f (cc bs n k i : nat) (f : file) (head : option nat) (h : heap D) : option (bool * file * option nat * heap D) :=
  match n with
  | O => Some (true, f, head, h)
  | S n =>
    r <- sp_seq frame D prepare generate i (i + bs) (silence V zero bs) head h ;;
    if sr_ok _ _ r then
      '(st, f) <- file_write V narrow true (write_fault k) junk f (channels V cc (sr_out _ _ r)) bs ;;
      if (st =? status_success)%Z then render_loop_f cc bs n (S k) (i + bs) f (sr_head _ _ r) (sr_heap _ _ r) else Some (false, f, sr_head _ _ r, sr_heap _ _ r)
    else Some (false, f, sr_head _ _ r, sr_heap _ _ r)
  end.
(** sp_render_range_file, main.c:334-364: success, bytes of the file, remaining elements of event lists. Allocations succeed (C59) *)
Definition render_range_file_f (e : event D) (start end_ cc : nat) (rate : Z) (bs : nat) (h : heap D) : option (bool * list Z * heap D) :=
  '(_, head, h) <- list_add D true None e h ;;
  '(status, f) <- open_handle cc rate ;;
  if negb (status =? status_success)%Z then
    content <- close_handle f ;; Some (false, content, h)
  else
    match f with
    | Open f =>
      _ <- need (negb (bs =? 0)) ;;
      let remainder := duration start end_ mod bs in
      let n := duration start end_ / bs in
      '(ok, f, head, h) <- render_loop_f cc bs n 0 0 f head h ;;
      if negb ok then Some (false, close_write None None f, h)
      else if remainder =? 0 then '(h, _) <- list_free D (fuel D h) head h ;; Some (true, close_write None None f, h)
      else
        r <- sp_seq frame D prepare generate (n * bs) (n * bs + remainder) (silence V zero bs) head h ;;
        if sr_ok _ _ r then
          '(st, f) <- file_write V narrow true (write_fault n) junk f (channels V cc (sr_out _ _ r)) remainder ;;
          if (st =? status_success)%Z then
            '(h, _) <- list_free D (fuel D (sr_heap _ _ r)) (sr_head _ _ r) (sr_heap _ _ r) ;; Some (true, close_write None None f, h)
          else Some (false, close_write None None f, sr_heap _ _ r)
        else Some (false, close_write None None f, sr_heap _ _ r)
    | _ => None
    end.

(** sp_render_file, main.c:384-393. [cc], [rate]: sp_channel_count and sp_rate. sp_render_block_seconds is 4. No content: the file has not been opened *)
Definition render_file (e : event D) (cc : nat) (rate : Z) (h : heap D) : option (bool * option (list Z) * heap D) :=
  match (if ev_end D e =? 0 then if ev_prepare D e then option_map (prepared D) (prepare e) else Some e else Some e) with
  | None => Some (false, None, h)
  | Some e =>
    _ <- need (negb (rate =? 0)%Z) ;;
    '(ok, content, h) <- render_range_file_f e 0 (ev_end D e) cc rate (Z.to_nat (u32 (4 * rate))) h ;;
    Some (ok, Some content, h)
  end.
End Render.
