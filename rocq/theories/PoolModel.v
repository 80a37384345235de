(** Thread pool: /repo/source/c/foreign/sph-sc-lib/sph-sp/thread-pool.c and thread-pool.h.

    - The threads are interleaved in steps. A step is an access to shared memory in a critical section, or a pthread call. Which thread makes the next step is
      given by an [event]: every list of events is a schedule. [Blocked]: the thread can not make a step now. [Undefined]: undefined behaviour.
    - Memory is sequentially consistent. Everything shared is accessed with the mutex held, except fields of tasks, which belong to one thread at a time.
    - pthread_cond_signal wakes one waiting thread if there is any. POSIX allows more, these are spurious wake-ups here, which can happen at any time.
    - A task is the address of its struct. The queue node is its first field, so sph_queue_get gives the same address. [is_finish]: whether the field f
      of the task is sph_thread_finish.
    - Functions of tasks are lists of steps on the memory [M] of the user, the same list for all tasks, with the address of the task as an argument.
      [prepare] is what a user writes to memory before enqueueing. Tasks that enqueue other tasks are included: calls of sph_thread_pool_enqueue can be made
      at any time by any number of threads.
    - All threads exist at the start: sph_thread_pool_new creates them in a loop, in which nothing else is done. If pthread_create fails for thread i then
      new calls finish for a pool with i threads without waiting, which is the state [init i] with the event [Finish true false].
    - pthread_join, pthread_mutex_lock and so on do not fail. *)
From Verif Require Import Base QueueModel.

(** Where a worker is in sph_thread_pool_worker, thread-pool.c:60-75 *)
Inductive wpc :=
  | WLock           (* before locking, 63 *)
  | WCheck          (* mutex held, before looking at the size, 66 *)
  | WWait           (* in pthread_cond_wait, 69 *)
  | WWake           (* woken up, before locking the mutex again *)
  | WUnlock (t : nat)       (* has taken task t, before unlocking, 72 *)
  | WCall (t : nat)         (* before reading the function of the task, 73 *)
  | WRun (t k : nat)        (* k steps of the function are done *)
  | WExited.
(** Where a call is in sph_thread_pool_enqueue, thread-pool.c:14-19 *)
Inductive cpc := CLock | CEnq | CSignal | CUnlock.
(** Where the call of sph_thread_pool_finish is, thread-pool.c:27-57. [n]: the local variable size *)
Inductive fpc :=
  | FIdle
  | FDiscardLock | FDiscardInit | FDiscardUnlock     (* 33-35 *)
  | FMalloc (i n : nat)                              (* 38-42 *)
  | FCall (i n t : nat)                              (* in the call of enqueue, 44 *)
  | FJoin (i n : nat)                                (* 46-56 *)
  | FReturned (r : Z).
(** The thread that holds the mutex: a worker, a thread that enqueues a task, finish *)
Inductive agent := AW (i : nat) | AC (t : nat) | AF.
(** What happens, for stating properties. Does not influence anything. *)
Inductive obs :=
  | OEnqueued (t : nat) (finish : bool)
  | ODequeued (t : nat) (finish : bool)
  | ODiscarded
  | OStart (i t : nat)
  | ODone (i t : nat)
  | OExit (i t : nat)
  | OFinish.

Section Pool.
Variables M X : Type.
Variable prepare : nat -> X -> M -> M.
Variable code : list (nat -> M -> M).

(** [owner], [destroyed]: state of the mutex and the condition variable *)
Record pool := mkpool {
  q : queue; next : heap; is_finish : nat -> bool; owner : option agent; destroyed : bool; size : nat;
  workers : list wpc; calls : list (nat * cpc); fin : fpc; no_wait : bool; mem : M; trace : list obs }.
Inductive outcome := Blocked | Undefined | Next (s : pool).

(** sph_thread_pool_new, thread-pool.c:78-103 *)
Definition init (n : nat) (h : heap) (f : nat -> bool) (m : M) : pool := mkpool queue_init h f None false n (repeat WLock n) [] FIdle false m [].

(** changes of the state *)
Definition set_queue (s : pool) q h := mkpool q h (is_finish s) (owner s) (destroyed s) (size s) (workers s) (calls s) (fin s) (no_wait s) (mem s) (trace s).
Definition set_kind (s : pool) t b := mkpool (q s) (next s) (fun a => if a =? t then b else is_finish s a) (owner s) (destroyed s) (size s) (workers s) (calls s) (fin s) (no_wait s) (mem s) (trace s).
Definition set_owner (s : pool) o := mkpool (q s) (next s) (is_finish s) o (destroyed s) (size s) (workers s) (calls s) (fin s) (no_wait s) (mem s) (trace s).
Definition set_size (s : pool) n d := mkpool (q s) (next s) (is_finish s) (owner s) d n (workers s) (calls s) (fin s) (no_wait s) (mem s) (trace s).
Definition set_workers (s : pool) w := mkpool (q s) (next s) (is_finish s) (owner s) (destroyed s) (size s) w (calls s) (fin s) (no_wait s) (mem s) (trace s).
Definition set_calls (s : pool) c := mkpool (q s) (next s) (is_finish s) (owner s) (destroyed s) (size s) (workers s) c (fin s) (no_wait s) (mem s) (trace s).
Definition set_fin (s : pool) f := mkpool (q s) (next s) (is_finish s) (owner s) (destroyed s) (size s) (workers s) (calls s) f (no_wait s) (mem s) (trace s).
Definition set_no_wait (s : pool) b := mkpool (q s) (next s) (is_finish s) (owner s) (destroyed s) (size s) (workers s) (calls s) (fin s) b (mem s) (trace s).
Definition set_mem (s : pool) m := mkpool (q s) (next s) (is_finish s) (owner s) (destroyed s) (size s) (workers s) (calls s) (fin s) (no_wait s) m (trace s).
Definition note (s : pool) o := mkpool (q s) (next s) (is_finish s) (owner s) (destroyed s) (size s) (workers s) (calls s) (fin s) (no_wait s) (mem s) (trace s ++ [o]).
Definition set_worker (s : pool) i pc := set_workers s (firstn i (workers s) ++ pc :: skipn (S i) (workers s)).

(** the call that enqueues task t, with the calls before and after *)
Fixpoint find_call (t : nat) (l : list (nat * cpc)) : option (list (nat * cpc) * cpc * list (nat * cpc)) :=
  match l with
  | [] => None
  | (u, pc) :: r => if u =? t then Some ([], pc, r) else match find_call t r with Some (a, p, b) => Some ((u, pc) :: a, p, b) | None => None end
  end.
(** tasks in the queue, in order *)
Fixpoint nodes (k : nat) (h : heap) (p : nat) : list nat := match k with O => [] | S k => if p =? 0 then [] else p :: nodes k h (h p) end.
Definition queued (s : pool) : list nat := nodes (Z.to_nat (qsize (q s))) (next s) (qfirst (q s)).
Definition taken (pc : wpc) : list nat := match pc with WUnlock t | WCall t => [t] | _ => [] end.
(** tasks that belong to the pool *)
Definition in_use (s : pool) (t : nat) : bool :=
  existsb (Nat.eqb t) (queued s) || existsb (Nat.eqb t) (map fst (calls s)) || existsb (Nat.eqb t) (flat_map taken (workers s)).

(** pthread_mutex_lock *)
Definition lock (a : agent) (s : pool) (k : pool -> pool) : outcome :=
  if destroyed s then Undefined else match owner s with None => Next (k (set_owner s (Some a))) | Some _ => Blocked end.

(** thread-pool.c:60-75 *)
Definition step_worker (i : nat) (s : pool) : outcome :=
  match nth_error (workers s) i with
  | None | Some WWait | Some WExited => Blocked
  | Some WLock | Some WWake => lock (AW i) s (fun s => set_worker s i WCheck)
  | Some WCheck =>
    if Z.eqb (qsize (q s)) 0 then
      if destroyed s then Undefined else Next (set_owner (set_worker s i WWait) None)
    else match deq (q s) (next s) with
      | None => Undefined
      | Some (t, q') => Next (note (set_queue (set_worker s i (WUnlock t)) q' (next s)) (ODequeued t (is_finish s t)))
      end
  | Some (WUnlock t) => Next (set_owner (set_worker s i (WCall t)) None)
  | Some (WCall t) =>
    (* sph_thread_finish, thread-pool.c:7-10 *)
    if is_finish s t then Next (note (set_worker s i WExited) (OExit i t)) else Next (note (set_worker s i (WRun t 0)) (OStart i t))
  | Some (WRun t k) =>
    match nth_error code k with
    | Some f => Next (set_mem (set_worker s i (WRun t (S k))) (f t (mem s)))
    | None => Next (note (set_worker s i WLock) (ODone i t))
    end
  end.
(** thread-pool.c:14-19. [w]: the worker that pthread_cond_signal wakes up *)
Definition step_call (t : nat) (w : option nat) (s : pool) : outcome :=
  match find_call t (calls s) with
  | None => Blocked
  | Some (before, pc, after) =>
    match pc with
    | CLock => lock (AC t) s (fun s => set_calls s (before ++ (t, CEnq) :: after))
    | CEnq =>
      match enq (q s) (next s) t with
      | None => Undefined
      | Some (q', h') => Next (note (set_queue (set_calls s (before ++ (t, CSignal) :: after)) q' h') (OEnqueued t (is_finish s t)))
      end
    | CSignal =>
      if destroyed s then Undefined
      else match w with
        | None => if existsb (fun pc => match pc with WWait => true | _ => false end) (workers s) then Blocked else Next (set_calls s (before ++ (t, CUnlock) :: after))
        | Some i => match nth_error (workers s) i with Some WWait => Next (set_calls (set_worker s i WWake) (before ++ (t, CUnlock) :: after)) | _ => Blocked end
        end
    | CUnlock =>
      let s := set_owner (set_calls s (before ++ after)) None in
      (* the call made by finish returns *)
      Next (match fin s with FCall i n u => if u =? t then set_fin s (FMalloc (S i) n) else s | _ => s end)
    end
  end.
(** thread-pool.c:27-57. [m]: the result of malloc *)
Definition step_finish (m : option nat) (s : pool) : outcome :=
  match fin s with
  | FIdle | FReturned _ | FCall _ _ _ => Blocked
  | FDiscardLock => lock AF s (fun s => set_fin s FDiscardInit)
  | FDiscardInit => Next (note (set_fin (set_queue s queue_init (next s)) FDiscardUnlock) ODiscarded)
  | FDiscardUnlock => Next (set_fin (set_owner s None) (FMalloc 0 (size s)))
  | FMalloc i n =>
    if i <? n then
      match m with
      | None => Next (set_fin s (FReturned 1))
      | Some t => if (t =? 0) || in_use s t then Blocked else Next (set_fin (set_calls (set_kind s t true) (calls s ++ [(t, CLock)])) (FCall i n t))
      end
    else if no_wait s then Next (set_fin s (FReturned 0)) else Next (set_fin s (FJoin 0 n))
  | FJoin i n =>
    if i <? n then
      match nth_error (workers s) i with
      | Some WExited =>
        if size s - 1 =? 0 then if destroyed s then Undefined else Next (set_fin (set_size s (size s - 1) true) (FJoin (S i) n))
        else Next (set_fin (set_size s (size s - 1) (destroyed s)) (FJoin (S i) n))
      | _ => Blocked
      end
    else Next (set_fin s (FReturned 0))
  end.

(** [Enqueue]: a thread calls enqueue with a task that is not in use. The limit is for the size of the queue, which has 32 bit.
    [Spurious]: a waiting thread wakes up. [Finish]: a call of sph_thread_pool_finish, which can be made again when an earlier call has returned. Here too the limit is for the size of the queue. *)
Inductive event := Enqueue (t : nat) (x : X) | Spurious (i : nat) | Finish (wait discard : bool) | Call (t : nat) (w : option nat) | Work (i : nat) | Fin (m : option nat).
Definition step (e : event) (s : pool) : outcome :=
  match e with
  | Enqueue t x =>
    if (t =? 0) || in_use s t || Z.leb two32 (qsize (q s) + Z.of_nat (length (calls s) + length (workers s)) + 2) then Blocked
    else Next (set_calls (set_kind (set_mem s (prepare t x (mem s))) t false) (calls s ++ [(t, CLock)]))
  | Spurious i => match nth_error (workers s) i with Some WWait => Next (set_worker s i WWake) | _ => Blocked end
  | Finish nw dc =>
    match fin s with
    | FIdle | FReturned _ =>
      if Z.leb two32 (qsize (q s) + Z.of_nat (length (calls s) + length (workers s)) + 1) then Blocked
      else Next (note (set_fin (set_no_wait s nw) (if dc then FDiscardLock else FMalloc 0 (size s))) OFinish)
    | _ => Blocked
    end
  | Call t w => step_call t w s
  | Work i => step_worker i s
  | Fin m => step_finish m s
  end.
Fixpoint exec (es : list event) (s : pool) : outcome :=
  match es with [] => Next s | e :: es => match step e s with Next s' => exec es s' | o => o end end.
End Pool.
