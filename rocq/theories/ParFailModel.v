(** Failures in sp_seq_parallel, /repo/source/c-precompiled/sph-sp/sequencer.c:301-376: who uses the futures, blocks and events, and when they are released.

    - Samples are in SeqParModel. Here an event is how often its evaluation uses memory of the call (the future, the block or the event), and how it ends.
    - Only the events in the time range of the call are listed. Others are removed or left alone and no thread uses them.
    - A schedule is any sequence of steps of the calling thread and of the evaluations of futures.
    - [None]: memory is used after it has been released. *)
From Verif Require Import Base.

(** [room]: sp_block_new for the event succeeds. [work]: the number of uses of memory of the call by the evaluation before the last one, which sets the flag finished
    (sequencer.c:286-297, futures.c:26-31). [outcome]: the status of prepare and generate, None is success *)
Record job := mkjob { room : bool; work : nat; outcome : option nat }.
Inductive failure := NoMemory | Of (id : nat).
Inductive phase := Counting | Distributing | Merging | Returned (status : option failure).
(** [tasks]: for each future, how often its evaluation will use memory of the call. [futures_alive]: sf_array and the blocks. [events_alive]: the list of events *)
Record state := mkstate { at_ : phase; tasks : list nat; merged : nat; futures_alive : bool; events_alive : bool }.
Definition start : state := mkstate Counting [] 0 true true.

(** the label exit, sequencer.c:365-375: the blocks and the array are released, after a failure also all events *)
Definition leave (r : option failure) (s : state) : state :=
  mkstate (Returned r) (tasks s) (merged s) false (match r with None => events_alive s | Some _ => false end).
(** one step of the calling thread. [array_room]: sp_malloc_type succeeds, sequencer.c:327. Distribute: 330-352. Merge: 353-364 *)
Definition main_step (array_room : bool) (jobs : list job) (s : state) : state :=
  match at_ s with
  | Counting => if array_room then mkstate Distributing [] 0 (futures_alive s) (events_alive s) else leave (Some NoMemory) s
  | Distributing =>
    match nth_error jobs (length (tasks s)) with
    | None => mkstate Merging (tasks s) 0 (futures_alive s) (events_alive s)
    | Some j =>
      if room j then mkstate Distributing (tasks s ++ [S (work j)]) (merged s) (futures_alive s) (events_alive s) else leave (Some NoMemory) s
    end
  | Merging =>
    match nth_error jobs (merged s) with
    | None => leave None s
    | Some j =>
      match nth_error (tasks s) (merged s) with
      | Some 0 =>
        match outcome j with
        | None => mkstate Merging (tasks s) (S (merged s)) (futures_alive s) (events_alive s)
        | Some id => leave (Some (Of id)) s
        end
      | _ => s
      end
    end
  | Returned _ => s
  end.
(** one use of memory by the evaluation of future [i] *)
Definition worker_step (i : nat) (s : state) : option state :=
  match nth_error (tasks s) i with
  | Some (S k) =>
    _ <- need (futures_alive s && events_alive s) ;;
    ts <- aset (tasks s) i k ;; Some (mkstate (at_ s) ts (merged s) (futures_alive s) (events_alive s))
  | _ => Some s
  end.
Inductive choice := Main | Worker (i : nat).
Definition step (array_room : bool) (jobs : list job) (c : choice) (s : state) : option state :=
  match c with Main => Some (main_step array_room jobs s) | Worker i => worker_step i s end.
Fixpoint run (array_room : bool) (jobs : list job) (schedule : list choice) (s : state) : option state :=
  match schedule with [] => Some s | c :: rest => s <- step array_room jobs c s ;; run array_room jobs rest s end.
