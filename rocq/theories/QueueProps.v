(** Property C53 *)
From Verif Require Import Base QueueModel QueueSpec QueueProofs.

(** C53: for every sequence of operations that follows the rules, the nodes come out as specified by [fifo], the size is the number of nodes left, and
    taking these out gives them in order. [h]: any previous contents of the memory of nodes. *)
Theorem c53_fifo :
  forall ops l out h, fifo ops [] [] l out ->
  exists q h', run ops queue_init h [] = Some (out, q, h') /\ qsize q = Z.of_nat (length l) /\ (qfirst q = 0 <-> l = []) /\
    exists q2, run (repeat Deq (length l)) q h' [] = Some (l, q2, h') /\ qsize q2 = 0%Z.
Proof. exact queue_fifo. Qed.
Print Assumptions c53_fifo.
(** C53: the nodes taken out followed by those left in the queue are exactly the enqueued nodes, in this order: none is lost or duplicated. *)
Theorem c53_order :
  forall ops l out h, fifo ops [] [] l out -> Forall (fun o => o <> Init) ops ->
  exists q h', run ops queue_init h [] = Some (out, q, h') /\ out ++ l = enqueued_nodes ops.
Proof. exact queue_order. Qed.
Print Assumptions c53_order.
(** C53: memory of other nodes is not changed. *)
Theorem c53_other_nodes :
  forall ops l out h q h' a, fifo ops [] [] l out -> run ops queue_init h [] = Some (out, q, h') -> ~ In a (enqueued_nodes ops) -> h' a = h a.
Proof. intros ops l out h q h' a hf e. exact (queue_other_nodes ops [] [] l out queue_init h hf (holds_init h) q h' a e (fun i => i)). Qed.
Print Assumptions c53_other_nodes.

(** nodes are used again after they have been taken out *)
Example c53_instance :
  fifo [Enq 5; Enq 3; Deq; Enq 5; Deq; Deq; Enq 9; Enq 3] [] [] [9; 3] [5; 3; 5] /\
  (exists q h', run [Enq 5; Enq 3; Deq; Enq 5; Deq; Deq; Enq 9; Enq 3] queue_init (fun _ => 77) [] = Some ([5; 3; 5], q, h') /\ qsize q = 2%Z) /\
  (* outside of the rules: taking out of an empty queue, enqueueing a node twice loses the nodes between *)
  run [Deq] queue_init (fun _ => 77) [] = None /\
  (exists q h', run [Enq 1; Enq 2; Enq 1; Deq] queue_init (fun _ => 77) [] = Some ([1], q, h') /\ qfirst q = 0 /\ qsize q = 2%Z).
Proof.
  assert (hf : fifo [Enq 5; Enq 3; Deq; Enq 5; Deq; Deq; Enq 9; Enq 3] [] [] [9; 3] [5; 3; 5]).
  { repeat first [apply fifo_end | apply fifo_deq | apply fifo_enq; [discriminate|cbn; intuition discriminate|reflexivity|]]. }
  split; [exact hf|]. split; [|split; [reflexivity|]].
  - destruct (c53_fifo _ _ _ (fun _ => 77) hf) as (q & h' & e & h1 & _). exists q, h'. split; [exact e|exact h1].
  - do 2 eexists. split; [reflexivity|]. split; reflexivity.
Qed.
