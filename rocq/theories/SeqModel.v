(** Model of the event list (doubly linked, heap allocated) and of sp_seq.

    - Times are [nat]; the C type is uint32.  All arithmetic of the modelled functions is comparisons and subtractions;
      a subtraction that would wrap around is [None].
    - A pointer is [option nat] ([None] is NULL).  Reading or writing a node that is not allocated is [None].
    - Loops carry a fuel argument; running out of fuel is [None].  The callers pass the number of nodes ever allocated
      plus one, which the proofs show to suffice for every well formed list.
    - Allocation is assumed to succeed unless the [ok] argument of [list_add] is false.
    - An output block is a list of frames (one value for all channels), [F] is arbitrary.
    - The callbacks prepare, generate and free are arbitrary functions of the event; [D] is everything else an event
      carries (configuration and memory).  Calls of callbacks are recorded in a log. *)
From Verif Require Import Base.

Section Seq.
Variables (F D : Type).

(** sp_event_t, /repo/source/c-precompiled/sph-sp/sequencer.h:151-159. [ev_id] identifies the event in the log and has no
    counterpart in C. [ev_prepare], [ev_free]: whether the function pointers are set. *)
Record event := {
  ev_id : nat;
  ev_start : nat;
  ev_end : nat;
  ev_prepare : bool;
  ev_free : bool;
  ev_data : D
}.

(** sp_event_list_t, sequencer.h:163-167 *)
Record node := { n_previous : option nat; n_next : option nat; n_event : event }.
Record heap := { nodes : nat -> option node; fresh : nat }.

Definition set_node (h : heap) (p : nat) (n : option node) : heap :=
  {| nodes := fun q => if q =? p then n else nodes h q; fresh := fresh h |}.
Definition set_next (h : heap) (p : nat) (x : option nat) : option heap :=
  n <- nodes h p ;; Some (set_node h p (Some {| n_previous := n_previous n; n_next := x; n_event := n_event n |})).
Definition set_previous (h : heap) (p : nat) (x : option nat) : option heap :=
  n <- nodes h p ;; Some (set_node h p (Some {| n_previous := x; n_next := n_next n; n_event := n_event n |})).
Definition set_event (h : heap) (p : nat) (e : event) : option heap :=
  n <- nodes h p ;; Some (set_node h p (Some {| n_previous := n_previous n; n_next := n_next n; n_event := e |})).
Definition free_node (h : heap) (p : nat) : option heap :=
  _ <- nodes h p ;; Some (set_node h p None).
Definition fuel (h : heap) : nat := S (fresh h).

(** sp_event_list_reverse, /repo/source/c-precompiled/sph-sp/sequencer.c:15-26. The uninitialised local [current] is [None]
    of the outer option: returning it is undefined. *)
Fixpoint reverse_loop (n : nat) (next current : option nat) (h : heap) : option (option nat * heap) :=
  match next with
  | None => c <- current ;; Some (Some c, h)
  | Some p =>
    match n with
    | O => None
    | S n =>
      x <- nodes h p ;;
      h <- set_next h p (n_previous x) ;;
      h <- set_previous h p (n_next x) ;;
      reverse_loop n (n_next x) (Some p) h
    end
  end.
Definition list_reverse (head : option nat) (h : heap) : option (option nat * heap) :=
  reverse_loop (fuel h) head None h.

(** sp_event_list_find_duplicate, sequencer.c:27-42. [false]: exit(1) *)
Fixpoint find_duplicate (n : nat) (a : option nat) (b : nat) (count : nat) (h : heap) : option bool :=
  match a with
  | None => Some true
  | Some p =>
    match n with
    | O => None
    | S n =>
      x <- nodes h p ;;
      if p =? b then if count =? 1 then Some false else find_duplicate n (n_next x) b (S count) h
      else find_duplicate n (n_next x) b count h
    end
  end.

Definition opt_eqb (a b : option nat) : bool :=
  match a, b with Some x, Some y => x =? y | None, None => true | _, _ => false end.

(** sp_event_list_validate, sequencer.c:43-61. [false]: exit(1) *)
Fixpoint validate_loop (n : nat) (a b c : option nat) (h : heap) : option bool :=
  match b with
  | None => Some true
  | Some p =>
    match n with
    | O => None
    | S n =>
      x <- nodes h p ;;
      if negb (opt_eqb c (n_previous x)) then Some false
      else if opt_eqb (n_next x) (n_previous x) && negb (opt_eqb (n_next x) None) then Some false
      else
        d <- find_duplicate (fuel h) a p 0 h ;;
        if (d : bool) then validate_loop n a (n_next x) (Some p) h else Some false
    end
  end.
Definition list_validate (head : option nat) (h : heap) : option bool := validate_loop (fuel h) head head None h.

(** the pointer updates of sp_event_list_remove, sequencer.c:65-73 *)
Definition list_unlink (head : option nat) (p : nat) (h : heap) : option (option nat * heap) :=
  x <- nodes h p ;;
  '(head, h) <- (match n_previous x with
    | Some q => h <- set_next h q (n_next x) ;; Some (head, h)
    | None => Some (n_next x, h)
    end) ;;
  h <- (match n_next x with Some q => set_previous h q (n_previous x) | None => Some h end) ;;
  Some (head, h).

(** sp_event_list_add, sequencer.c:81-120. The loop of lines 102-112, from node [current] *)
Fixpoint add_loop (n : nat) (e : event) (new : nat) (current : nat) (h : heap) : option heap :=
  match n with
  | O => None
  | S n =>
    x <- nodes h current ;;
    match n_next x with
    | Some q =>
      y <- nodes h q ;;
      if ev_start (n_event y) <=? ev_start e then
        h <- set_previous h new (n_previous y) ;;
        h <- set_next h new (Some q) ;;
        y <- nodes h q ;;
        r <- n_previous y ;;
        h <- set_next h r (Some new) ;;
        set_previous h q (Some new)
      else add_loop n e new q h
    | None =>
      h <- set_next h new None ;;
      h <- set_previous h new (Some current) ;;
      set_next h current (Some new)
    end
  end.
Definition list_add (ok : bool) (head : option nat) (e : event) (h : heap) : option (bool * option nat * heap) :=
  if ok then
    let new := fresh h in
    let h := {| nodes := fun q => if q =? new then Some {| n_previous := None; n_next := None; n_event := e |} else nodes h q;
                fresh := S new |} in
    match head with
    | None => Some (true, Some new, h)
    | Some c =>
      x <- nodes h c ;;
      if ev_start (n_event x) <=? ev_start e then
        h <- set_previous h new None ;;
        h <- set_next h new (Some c) ;;
        h <- set_previous h c (Some new) ;;
        Some (true, Some new, h)
      else
        h <- add_loop (fuel h) e new c h ;;
        Some (true, head, h)
    end
  else Some (false, head, h).

(** log of callback invocations *)
Inductive action :=
| APrepare (id : nat)
| AGenerate (id start end_ : nat)
| AFree (e : event).

(** sp_event_list_remove, sequencer.c:65-78 *)
Definition list_remove (head : option nat) (p : nat) (h : heap) : option (option nat * heap * list action) :=
  '(head, h) <- list_unlink head p h ;;
  x <- nodes h p ;;
  h <- free_node h p ;;
  Some (head, h, if ev_free (n_event x) then [AFree (n_event x)] else []).

(** sp_event_list_free, sequencer.c:124-135 *)
Fixpoint list_free (n : nat) (current : option nat) (h : heap) : option (heap * list action) :=
  match current with
  | None => Some (h, [])
  | Some p =>
    match n with
    | O => None
    | S n =>
      x <- nodes h p ;;
      h <- free_node h p ;;
      '(h, log) <- list_free n (n_next x) h ;;
      Some (h, (if ev_free (n_event x) then [AFree (n_event x)] else []) ++ log)
    end
  end.

(** Callbacks. [None]: undefined behaviour, [Some (inl ..)]: success, [Some (inr ..)]: failure status. The event passed
    to a failing generate callback may have been changed. *)
Variable prepare : event -> option event.
Variable generate : nat -> nat -> list F -> event -> option (list F * event * bool).

(** clear the prepare pointer, sequencer.h:16-22 *)
Definition prepared (e : event) : event :=
  {| ev_id := ev_id e; ev_start := ev_start e; ev_end := ev_end e; ev_prepare := false; ev_free := ev_free e; ev_data := ev_data e |}.

(** the call of generate at sequencer.c:267: event relative times, output from the event start on *)
Definition call_generate (start end_ : nat) (out : list F) (e : event) : option (list F * event * bool) :=
  let e_end := Nat.min end_ (ev_end e) in
  _ <- need (ev_start e <=? e_end) ;;
  let offset := if start <? ev_start e then ev_start e - start else 0 in
  _ <- need (offset <=? length out) ;;
  '(sub, e, ok) <- generate (if ev_start e <? start then start - ev_start e else 0) (e_end - ev_start e) (skipn offset out) e ;;
  Some (firstn offset out ++ sub, e, ok).

Record seq_result := { sr_ok : bool; sr_out : list F; sr_head : option nat; sr_heap : heap; sr_log : list action }.

(** sp_seq, sequencer.c:247-276 *)
Definition seq_fail (out : list F) (head : option nat) (h : heap) (log : list action) : option seq_result :=
  '(h, log') <- list_free (fuel h) head h ;;
  Some {| sr_ok := false; sr_out := out; sr_head := None; sr_heap := h; sr_log := log ++ log' |}.

Fixpoint seq_loop (n : nat) (start end_ : nat) (out : list F) (head current : option nat) (h : heap) (log : list action)
  : option seq_result :=
  match current with
  | None => Some {| sr_ok := true; sr_out := out; sr_head := head; sr_heap := h; sr_log := log |}
  | Some p =>
    match n with
    | O => None
    | S n =>
      x <- nodes h p ;;
      let e := n_event x in
      if ev_end e <=? start then
        '(head, h, log') <- list_remove head p h ;;
        seq_loop n start end_ out head (n_next x) h (log ++ log')
      else if end_ <=? ev_start e then
        Some {| sr_ok := true; sr_out := out; sr_head := head; sr_heap := h; sr_log := log |}
      else
        let '(prep, log) :=
          if ev_prepare e then (option_map prepared (prepare e), log ++ [APrepare (ev_id e)]) else (Some e, log) in
        match prep with
        | None => seq_fail out head h log
        | Some e =>
          h <- set_event h p e ;;
          '(out, e', ok) <- call_generate start end_ out e ;;
          h <- set_event h p e' ;;
          let log := log ++ [AGenerate (ev_id e) (if ev_start e <? start then start - ev_start e else 0)
                               (Nat.min end_ (ev_end e) - ev_start e)] in
          if (ok : bool) then
            x <- nodes h p ;;
            seq_loop n start end_ out head (n_next x) h log
          else seq_fail out head h log
        end
    end
  end.
Definition sp_seq (start end_ : nat) (out : list F) (head : option nat) (h : heap) : option seq_result :=
  seq_loop (fuel h) start end_ out head head h [].
End Seq.
