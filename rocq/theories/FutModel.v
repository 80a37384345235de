(** Futures: /repo/source/c/foreign/sph-sc-lib/sph-sp/futures.c and futures.h, on top of the model of the thread pool.

    - A future is known by the address of its struct. sph_future_t has the task as its first field (futures.h:17-21), the pointer arithmetic in
      sph_future_eval gives the same address.
    - Functions of futures have one argument, [D] is everything such a function reads and writes.
    - Access to finished and data of futures is sequentially consistent. In the code finished is a plain uint8_t that is read without a lock, in C11 this is a data race. *)
From Verif Require Import Base QueueModel PoolModel.

Section Futures.
Variable D : Type.
(** sph_future_t, futures.h:17-21 *)
Record future := mkfuture { fn : D -> D; data : D; finished : bool }.
Definition futures := nat -> future.
Definition store (m : futures) (t : nat) (a : future) : futures := fun u => if u =? t then a else m u.
(** sph_future_new before the call of sph_thread_pool_enqueue, futures.c:35-39 *)
Definition future_new (t : nat) (x : (D -> D) * D) (m : futures) : futures := store m t (mkfuture (fst x) (snd x) false).
(** sph_future_eval, futures.c:26-31. Two steps *)
Definition future_eval : list (nat -> futures -> futures) :=
  [fun t m => store m t (mkfuture (fn (m t)) (fn (m t) (data (m t))) (finished (m t)));
   fun t m => store m t (mkfuture (fn (m t)) (data (m t)) true)].
Definition fpool := pool futures.
Definition fevent := event ((D -> D) * D).
Definition fstep : fevent -> fpool -> outcome futures := step futures ((D -> D) * D) future_new future_eval.
Definition fexec : list fevent -> fpool -> outcome futures := exec futures ((D -> D) * D) future_new future_eval.
(** sph_future_touch, futures.c:53-59: reads of finished until it is not 0, then the read of data. Both in one state here, but see the theorem, which is about
    any two states *)
Definition is_finished (s : fpool) (t : nat) : bool := finished (mem futures s t).
Definition result (s : fpool) (t : nat) : D := data (mem futures s t).
End Futures.

(** ** Creating and ending the pool: futures.c:9-20 and 45-50.
    The calls are made by one thread and nothing else is enqueued meanwhile. sph_thread_pool_new and malloc in sph_thread_pool_finish succeed.
    [initialized]: sph_futures_pool_is_initialized. [threads]: living threads of the pool. [psize]: field size of the pool. [valid]: the mutex and the condition variable exist. *)
Record life := mklife { initialized : bool; threads : nat; psize : nat; valid : bool }.
Definition life_start : life := mklife false 0 0 false.
(** sph_thread_pool_destroy, thread-pool.c:1-4. [None]: destroying what does not exist, undefined by POSIX *)
Definition pool_destroy (a : life) : option life := if valid a then Some (mklife (initialized a) (threads a) (psize a) false) else None.
(** sph_future_init, futures.c:9-20 with sph_thread_pool_new, thread-pool.c:78-103 *)
Definition future_init (n : nat) (a : life) : life := if initialized a then a else mklife true n n true.
(** sph_thread_pool_finish (a, 0, 0), thread-pool.c:27-57: for size threads, a task is enqueued that ends a thread, then the thread is joined. *)
Fixpoint join_threads (k : nat) (a : life) : option life :=
  match k with
  | O => Some a
  | S k =>
    let a := mklife (initialized a) (threads a - 1) (psize a - 1) (valid a) in
    a <- (if psize a =? 0 then pool_destroy a else Some a) ;; join_threads k a
  end.
Definition pool_finish_wait (a : life) : option life :=
  (* locking in enqueue *)
  _ <- need ((psize a =? 0) || valid a) ;;
  join_threads (psize a) a.
(** sph_future_deinit, futures.c:45-50 *)
Definition future_deinit (a : life) : option life :=
  if initialized a then a <- pool_finish_wait a ;; pool_destroy a else Some a.
(** sph_future_deinit where destroying twice does nothing, as in common implementations *)
Definition future_deinit_lenient (a : life) : option life :=
  if initialized a then a <- pool_finish_wait a ;; Some (mklife (initialized a) (threads a) (psize a) false) else Some a.
