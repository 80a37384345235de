(** What is observed of a thread pool. *)
From Verif Require Import Base PoolModel.
From Coq Require Import Permutation.

(** tasks that have been added to the queue, in order. true: made by finish to end a thread *)
Definition enqueued (tr : list obs) : list (nat * bool) := flat_map (fun o => match o with OEnqueued t b => [(t, b)] | _ => [] end) tr.
Definition dequeued (tr : list obs) : list (nat * bool) := flat_map (fun o => match o with ODequeued t b => [(t, b)] | _ => [] end) tr.
(** executions of functions of tasks that have begun, that have returned, and threads that have ended *)
Definition started (tr : list obs) : list nat := flat_map (fun o => match o with OStart _ t => [t] | _ => [] end) tr.
Definition completed (tr : list obs) : list nat := flat_map (fun o => match o with ODone _ t => [t] | _ => [] end) tr.
Definition exits (tr : list obs) : list nat := flat_map (fun o => match o with OExit _ t => [t] | _ => [] end) tr.
Definition user_tasks (l : list (nat * bool)) : list nat := map fst (filter (fun e => negb (snd e)) l).
Definition finish_tasks (l : list (nat * bool)) : list nat := map fst (filter snd l).
(** number of calls of finish *)
Definition finish_calls (tr : list obs) : nat := length (flat_map (fun o => match o with OFinish => [tt] | _ => [] end) tr).
(** the content of a first in first out queue after a history, [None] if a task was taken that is not the first *)
Fixpoint replay (tr : list obs) (l : list (nat * bool)) : option (list (nat * bool)) :=
  match tr with
  | [] => Some l
  | OEnqueued t b :: tr => replay tr (l ++ [(t, b)])
  | ODequeued t b :: tr => match l with (u, c) :: l => if (t =? u) && Bool.eqb b c then replay tr l else None | [] => None end
  | ODiscarded :: tr => replay tr []
  | _ :: tr => replay tr l
  end.
(** events that come from outside of the pool *)
Definition outside {X : Type} (e : event X) : bool := match e with Enqueue _ _ | Spurious _ | Finish _ _ => true | _ => false end.
Definition count {X : Type} (p : event X -> bool) (es : list (event X)) : nat := length (filter p es).
Definition is_enqueue {X : Type} (e : event X) : bool := match e with Enqueue _ _ => true | _ => false end.
Definition is_spurious {X : Type} (e : event X) : bool := match e with Spurious _ => true | _ => false end.
Definition is_finish_call {X : Type} (e : event X) : bool := match e with Finish _ _ => true | _ => false end.
