(** Parallel groups in parallel groups: sp_seq_parallel (/repo/source/c-precompiled/sph-sp/sequencer.c), with the futures and the thread pool of
    /repo/source/c/foreign/sph-sc-lib/sph-sp on which it runs.

    - Only what decides whether a thread can go on is modelled: which futures exist, which are queued, which thread evaluates which, and which are finished.
      Samples, statuses and memory are in SeqParModel.
    - All events of a group are in the time range of the call. Allocations and events succeed.
    - The events that are not parallel groups end, their evaluation is one step.
    - A schedule is any sequence of steps of the calling thread and of the threads of the pool. *)
From Verif Require Import Base.

(** an event: one that is not a parallel group, or one made with sp_group_parallel_event (sequencer.h:48-51) and the events added to it *)
Inductive job := Leaf | Group (members : list job).
(** sp_seq_future_t, sequencer.c:277-285, as far as it decides about progress. [Spawning rest made]: sp_seq_parallel in the loop "distribute",
    [rest] are the events for which there is no future yet. [Touching rest]: in the loop "merge", waiting for the first of [rest] *)
Inductive progress := Queued | Playing | Spawning (rest : list job) (made : list nat) | Touching (rest : list nat) | Finished.
(** [futures]: every sph_future_new appends one, a future is known by its index. [queue]: sph_thread_pool_t.queue. [workers]: for each thread of the pool,
    the future that it evaluates *)
Record state := mkstate { futures : list (job * progress); queue : list nat; workers : list (option nat) }.

Definition is_finished (s : state) (i : nat) : bool :=
  match nth_error (futures s) i with Some (_, Finished) => true | _ => false end.
Definition set_progress (s : state) (i : nat) (p : progress) : option state :=
  x <- aget (futures s) i ;; f <- aset (futures s) i (fst x, p) ;; Some (mkstate f (queue s) (workers s)).
(** sp_seq_parallel_future_f, sequencer.c:286-297, calls sp_group_generate_parallel, 383, for groups *)
Definition begin (j : job) : progress := match j with Leaf => Playing | Group l => Spawning l [] end.
(** one step of the evaluation of future [i]: sp_seq_parallel, sequencer.c:328-364. sph_future_new (futures.c:35-41) adds to the end of the queue
    (thread-pool.c:14-19), sph_future_touch (futures.c:53-59) tests the flag finished, and sleeps and tests again if it is not set *)
Definition advance (i : nat) (s : state) : option state :=
  x <- aget (futures s) i ;;
  match snd x with
  | Queued | Finished => Some s
  | Playing => set_progress s i Finished
  | Spawning (j :: rest) made =>
    let k := length (futures s) in
    set_progress (mkstate (futures s ++ [(j, Queued)]) (queue s ++ [k]) (workers s)) i (Spawning rest (made ++ [k]))
  | Spawning [] made => set_progress s i (Touching made)
  | Touching (c :: rest) => if is_finished s c then set_progress s i (Touching rest) else Some s
  | Touching [] => set_progress s i Finished
  end.
(** one step of a thread of the pool, sph_thread_pool_worker, thread-pool.c:60-75: it takes the first task of the queue and evaluates it to the end before it takes another one *)
Definition worker_step (w : nat) (s : state) : option state :=
  held <- aget (workers s) w ;;
  match held with
  | None =>
    match queue s with
    | [] => Some s
    | i :: q =>
      x <- aget (futures s) i ;;
      ws <- aset (workers s) w (Some i) ;;
      set_progress (mkstate (futures s) q ws) i (begin (fst x))
    end
  | Some i =>
    s <- advance i s ;;
    if is_finished s i then ws <- aset (workers s) w None ;; Some (mkstate (futures s) (queue s) ws) else Some s
  end.

Inductive thread := Main | Worker (w : nat).
(** future 0 stands for the call by the user *)
Definition step (t : thread) (s : state) : option state := match t with Main => advance 0 s | Worker w => worker_step w s end.
Fixpoint run (schedule : list thread) (s : state) : option state :=
  match schedule with [] => Some s | t :: rest => s <- step t s ;; run rest s end.
(** sp_seq_parallel called with events [l], while the [n] threads of the pool have nothing to do *)
Definition start (n : nat) (l : list job) : state := mkstate [(Group l, Spawning l [])] [] (repeat None n).
