(** Queue: /repo/source/c/foreign/sph-sc-lib/sph-sp/queue.h.

    - A pointer to a node is a number, 0 for null. Nodes have only the field next; [heap] maps the address of a node to it.
    - [None]: access through a null pointer.
    - [queue]: sph_queue_t, queue.h:30-34. The size wraps at 2^32. *)
From Verif Require Import Base.

Definition heap : Type := nat -> nat.
Definition put (h : heap) (p v : nat) : heap := fun a => if a =? p then v else h a.
Record queue := mkqueue { qsize : Z; qfirst : nat; qlast : nat }.

(** sph_queue_init, queue.h:36-40 *)
Definition queue_init : queue := mkqueue 0 0 0.
(** sph_queue_enq, queue.h:43-52 *)
Definition enq (q : queue) (h : heap) (node : nat) : option (queue * heap) :=
  '(first, h) <- (if negb (qfirst q =? 0) then _ <- need (negb (qlast q =? 0)) ;; Some (qfirst q, put h (qlast q) node) else Some (node, h)) ;;
  _ <- need (negb (node =? 0)) ;;
  Some (mkqueue (u32 (1 + qsize q)) first node, put h node 0).
(** sph_queue_deq, queue.h:55-64 *)
Definition deq (q : queue) (h : heap) : option (nat * queue) :=
  let n := qfirst q in
  _ <- need (negb (n =? 0)) ;;
  let last := if h n =? 0 then 0 else qlast q in
  Some (n, mkqueue (u32 (qsize q - 1)) (h n) last).

(** Uses of the queue: nodes that are taken out are collected. *)
Inductive op := Init | Enq (node : nat) | Deq.
Fixpoint run (ops : list op) (q : queue) (h : heap) (out : list nat) : option (list nat * queue * heap) :=
  match ops with
  | [] => Some (out, q, h)
  | Init :: ops => run ops queue_init h out
  | Enq n :: ops => '(q, h) <- enq q h n ;; run ops q h out
  | Deq :: ops => '(n, q) <- deq q h ;; run ops q h (out ++ [n])
  end.
