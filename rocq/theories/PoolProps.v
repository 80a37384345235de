(** Properties of the thread pool. Every theorem is for any number [n] of threads, any memory [M] of the user, any task functions [code], and
    any list of events [es], that is any schedule, with spurious wake-ups, failing allocations and any number of threads that enqueue tasks. *)
From Verif Require Import Base QueueModel PoolModel PoolSpec Pool4Proofs.
From Coq Require Import Permutation.

Definition idle (pc : wpc) : Prop := pc = WLock \/ pc = WCheck \/ pc = WWait \/ pc = WWake \/ pc = WExited.

(** C54: tasks are taken in the order in which they have been enqueued, and the tasks enqueued are exactly those taken and those in the queue.
    With discarding, the history is that of a first in first out queue that is emptied once. *)
Theorem c54_fifo : forall M X prepare code n h f m es s, (Z.of_nat n < two32)%Z -> exec M X prepare code es (init M n h f m) = Next M s ->
  replay (trace M s) [] = Some (map (fun t => (t, is_finish M s t)) (queued M s)) /\
  (~ In ODiscarded (trace M s) -> enqueued (trace M s) = dequeued (trace M s) ++ map (fun t => (t, is_finish M s t)) (queued M s)).
Proof. exact pool_fifo. Qed.
Print Assumptions c54_fifo.
(** C54: at any time every task taken from the queue has been started once or is about to be started by one thread, every task started has been completed once or
    is being executed by one thread. Nothing else is executed. *)
Theorem c54_at_most_once : forall M X prepare code n h f m es s, (Z.of_nat n < two32)%Z -> exec M X prepare code es (init M n h f m) = Next M s ->
  exists wait run, Permutation (user_tasks (dequeued (trace M s))) (started (trace M s) ++ wait) /\ Permutation (started (trace M s)) (completed (trace M s) ++ run) /\
    length (wait ++ run) + length (exits (trace M s)) <= n.
Proof. exact pool_at_most_once. Qed.
Print Assumptions c54_at_most_once.
(** C54: when no thread is busy then the tasks executed are exactly those taken. *)
Theorem c54_exactly_once : forall M X prepare code n h f m es s, (Z.of_nat n < two32)%Z -> exec M X prepare code es (init M n h f m) = Next M s ->
  (forall pc, In pc (workers M s) -> idle pc) ->
  Permutation (completed (trace M s)) (user_tasks (dequeued (trace M s))).
Proof. exact pool_once. Qed.
Print Assumptions c54_exactly_once.
(** C54: no deadlock and no lost wake-up. If no thread can make a step then all calls of enqueue have returned, all threads wait or have ended, the queue is empty unless
    all threads have ended, and finish has returned if it was called. *)
Theorem c54_progress : forall M X prepare code n h f m es s, (Z.of_nat n < two32)%Z -> exec M X prepare code es (init M n h f m) = Next M s ->
  (forall e, outside e = false -> step M X prepare code e s = Blocked M) ->
  calls M s = [] /\ (forall pc, In pc (workers M s) -> pc = WWait \/ pc = WExited) /\ (queued M s = [] \/ forall pc, In pc (workers M s) -> pc = WExited) /\
  (fin M s = FIdle \/ exists r, fin M s = FReturned r).
Proof. exact pool_progress. Qed.
Print Assumptions c54_progress.
(** C54: and this state is reached after a bounded number of steps of the pool. *)
Theorem c54_terminates : forall M X prepare code n h f m es s, (Z.of_nat n < two32)%Z -> exec M X prepare code es (init M n h f m) = Next M s ->
  count (fun e => negb (outside e)) es <=
  3 * n + (length code + 11) * count is_enqueue es + 2 * count is_spurious es + (n * (length code + 14) + 5) * count is_finish_call es.
Proof. exact pool_terminates. Qed.
Print Assumptions c54_terminates.
(** C54: then every task that has been enqueued has been executed exactly once. *)
Theorem c54_all_done : forall M X prepare code n h f m es s, (Z.of_nat n < two32)%Z -> exec M X prepare code es (init M n h f m) = Next M s ->
  (forall e, outside e = false -> step M X prepare code e s = Blocked M) -> 0 < n -> fin M s = FIdle -> ~ In ODiscarded (trace M s) ->
  Permutation (completed (trace M s)) (user_tasks (enqueued (trace M s))).
Proof. exact pool_all_done. Qed.
Print Assumptions c54_all_done.
(** C54: when a waiting finish has returned 0 then all threads have ended and every task taken has been executed once. All tasks that had been enqueued before the first call of finish have been
    taken, if not discarded, and the queue is empty unless other tasks have been enqueued during the call or finish has been called again. *)
Theorem c54_finish : forall M X prepare code n h f m es s, (Z.of_nat n < two32)%Z -> exec M X prepare code es (init M n h f m) = Next M s -> fin M s = FReturned 0 -> no_wait M s = false ->
  (forall pc, In pc (workers M s) -> pc = WExited) /\
  Permutation (completed (trace M s)) (user_tasks (dequeued (trace M s))) /\
  (0 < n -> ~ In ODiscarded (trace M s) -> exists before after, trace M s = before ++ OFinish :: after /\ ~ In OFinish before /\
    (exists later, dequeued (trace M s) = enqueued before ++ later) /\
    (user_tasks (enqueued after) = [] -> ~ In OFinish after -> queued M s = [])).
Proof. exact pool_finish. Qed.
Print Assumptions c54_finish.
(** C54: the only undefined behaviour is a call of enqueue, or of finish with discard_queue, that uses the mutex after finish has destroyed it, when all threads have ended. *)
Theorem c54_undefined : forall M X prepare code n h f m es s e, (Z.of_nat n < two32)%Z -> exec M X prepare code es (init M n h f m) = Next M s -> step M X prepare code e s = Undefined M ->
  destroyed M s = true /\ ((exists t w, e = Call X t w) \/ ((exists v, e = Fin X v) /\ fin M s = FDiscardLock)) /\ forall pc, In pc (workers M s) -> pc = WExited.
Proof. exact pool_undefined. Qed.
Print Assumptions c54_undefined.
(** C54: there is none if all calls of enqueue have returned when finish is called, there are none after it and only the first call of finish is made with discard_queue. *)
Theorem c54_defined : forall M X prepare code n h f m es1 s1 es2 s2 e, (Z.of_nat n < two32)%Z -> exec M X prepare code es1 (init M n h f m) = Next M s1 -> fin M s1 = FIdle -> calls M s1 = [] ->
  exec M X prepare code es2 s1 = Next M s2 -> Forall (fun e => forall t x, e <> Enqueue X t x) es2 ->
  (forall a nw b, es2 = a ++ Finish X nw true :: b -> count is_finish_call a = 0) -> step M X prepare code e s2 <> Undefined M.
Proof. exact pool_defined. Qed.
Print Assumptions c54_defined.

(** two threads, two tasks, the first of which makes a waiting thread wake up for nothing, then finish *)
Definition ex_code : list (nat -> list nat -> list nat) := [fun t m => m ++ [t]].
Notation ex_exec es := (exec (list nat) unit (fun _ _ m => m) ex_code es (init (list nat) 2 (fun _ => 77) (fun _ => true) [])).
Definition ex_tasks : list (event unit) :=
  [Work _ 0; Work _ 0; Enqueue _ 5 tt; Enqueue _ 7 tt; Call _ 5 None; Call _ 5 None; Call _ 5 (Some 0); Call _ 5 None; Work _ 1; Work _ 1; Work _ 1; Work _ 1; Work _ 0; Work _ 0;
   Call _ 7 None; Call _ 7 None; Call _ 7 (Some 0); Call _ 7 None; Work _ 0; Work _ 0; Work _ 0; Work _ 0; Work _ 0; Work _ 1; Work _ 1; Work _ 0].
Definition ex_finish : list (event unit) :=
  [Finish _ false false; Fin _ (Some 11); Call _ 11 None; Call _ 11 None; Call _ 11 None; Call _ 11 None; Fin _ (Some 12); Call _ 12 None; Call _ 12 None; Call _ 12 None; Call _ 12 None; Fin _ None;
   Work _ 0; Work _ 0; Work _ 0; Work _ 0; Work _ 1; Work _ 1; Work _ 1; Work _ 1; Fin _ None; Fin _ None; Fin _ None].
Example c54_instance :
  (exists s, ex_exec ex_tasks = Next _ s /\ fin _ s = FIdle /\ calls _ s = [] /\ mem _ s = [7; 5] /\ completed (trace _ s) = [5; 7] /\ dequeued (trace _ s) = [(5, false); (7, false)]) /\
  (exists s, ex_exec (ex_tasks ++ ex_finish) = Next _ s /\ fin _ s = FReturned 0 /\ no_wait _ s = false /\ workers _ s = [WExited; WExited] /\ destroyed _ s = true) /\
  (* when everything waits: no event inside is possible *)
  (exists s, ex_exec (ex_tasks ++ [Work unit 0; Work unit 0; Work unit 1; Work unit 1]) = Next _ s /\ workers _ s = [WWait; WWait] /\ fin _ s = FIdle /\
    forall e, outside e = false -> step (list nat) unit (fun _ _ m => m) ex_code e s = Blocked _) /\
  (* undefined: enqueue after finish *)
  (exists s, ex_exec (ex_tasks ++ ex_finish ++ [Enqueue unit 5 tt]) = Next _ s /\ step (list nat) unit (fun _ _ m => m) ex_code (Call _ 5 None) s = Undefined _).
Proof.
  repeat split; eexists; (split; [vm_compute; reflexivity|]); repeat split; try reflexivity.
  intros [| | |t w|[|[|[|i]]]|v] h; try discriminate; reflexivity.
Qed.

(** C114: finish can be called again. When a waiting finish returns 0, whatever calls have been made before, or when nothing is left to do after a call without waiting, then all threads have ended,
    every task taken has been executed once and all tasks that had been enqueued before the first call are among them, unless discarded. The tasks of finish that no thread has taken stay in the queue:
    there are as many as have been made beyond the number of threads. *)
Theorem c114_again : forall M X prepare code n h f m es s, (Z.of_nat n < two32)%Z -> exec M X prepare code es (init M n h f m) = Next M s -> fin M s = FReturned 0 ->
  no_wait M s = false \/ (forall e, outside e = false -> step M X prepare code e s = Blocked M) ->
  (forall pc, In pc (workers M s) -> pc = WExited) /\
  Permutation (completed (trace M s)) (user_tasks (dequeued (trace M s))) /\
  (0 < n -> ~ In ODiscarded (trace M s) ->
    (exists before after, trace M s = before ++ OFinish :: after /\ ~ In OFinish before /\
      (exists later, dequeued (trace M s) = enqueued before ++ later) /\
      (user_tasks (enqueued after) = [] -> forall t, In t (queued M s) -> is_finish M s t = true)) /\
    length (finish_tasks (enqueued (trace M s))) = n + length (filter (is_finish M s) (queued M s)) /\
    length (filter (is_finish M s) (queued M s)) <= n * (finish_calls (trace M s) - 1)).
Proof. exact pool_again. Qed.
Print Assumptions c114_again.
(** C114: no later call completes tasks enqueued after that. When all threads have ended, as after any call that returned 0 (see above), then nothing is executed anymore, whatever is enqueued and however finish is called. *)
Theorem c114_later : forall M X prepare code es s s', exec M X prepare code es s = Next M s' -> (forall pc, In pc (workers M s) -> pc = WExited) ->
  completed (trace M s') = completed (trace M s) /\ started (trace M s') = started (trace M s).
Proof. exact ended_exec. Qed.
Print Assumptions c114_later.
(** two tasks, finish without waiting, the threads end, a third task is enqueued, and finish is called again and waits: it returns 0, the third task has not been executed,
    and the two tasks of the second call are still in the queue *)
Definition ex_later : list (event unit) :=
  ex_tasks ++ [Finish _ true false; Fin _ (Some 11); Call _ 11 None; Call _ 11 None; Call _ 11 None; Call _ 11 None; Fin _ (Some 12); Call _ 12 None; Call _ 12 None; Call _ 12 None; Call _ 12 None; Fin _ None;
   Work _ 0; Work _ 0; Work _ 0; Work _ 0; Work _ 1; Work _ 1; Work _ 1; Work _ 1] ++
  [Enqueue _ 9 tt; Call _ 9 None; Call _ 9 None; Call _ 9 None; Call _ 9 None] ++
  [Finish _ false false; Fin _ (Some 13); Call _ 13 None; Call _ 13 None; Call _ 13 None; Call _ 13 None; Fin _ (Some 14); Call _ 14 None; Call _ 14 None; Call _ 14 None; Call _ 14 None; Fin _ None;
   Fin _ None; Fin _ None; Fin _ None].
Example c114_instance :
  (exists s, ex_exec (firstn (length ex_tasks + 20) ex_later) = Next _ s /\ fin _ s = FReturned 0 /\ no_wait _ s = true /\ workers _ s = [WExited; WExited] /\ completed (trace _ s) = [5; 7] /\
    forall e, outside e = false -> step (list nat) unit (fun _ _ m => m) ex_code e s = Blocked _) /\
  (exists s, ex_exec ex_later = Next _ s /\ fin _ s = FReturned 0 /\ no_wait _ s = false /\ workers _ s = [WExited; WExited] /\ destroyed _ s = true /\
    completed (trace _ s) = [5; 7] /\ queued _ s = [9; 13; 14] /\ user_tasks (enqueued (trace _ s)) = [5; 7; 9] /\ finish_calls (trace _ s) = 2) /\
  (* undefined: discarding the queue after the pool has been destroyed *)
  (exists s, ex_exec (ex_later ++ [Finish unit false true]) = Next _ s /\ step (list nat) unit (fun _ _ m => m) ex_code (Fin _ None) s = Undefined _).
Proof.
  split; [|split]; eexists; (split; [vm_compute; reflexivity|]); repeat split; try reflexivity.
  intros [| | |t w|[|[|[|i]]]|v] h; try discriminate; reflexivity.
Qed.
