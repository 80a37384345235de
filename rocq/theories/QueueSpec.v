(** What a queue does, without pointers. *)
From Verif Require Import Base QueueModel.

(** [fifo ops l out l' out']: the operations follow the rules for using the queue, and lead from the elements [l] in order to [l'].
    Rules: nodes exist and are not enqueued while they are in the queue, less than 2^32 nodes, nothing is taken out of an empty queue. *)
Inductive fifo : list op -> list nat -> list nat -> list nat -> list nat -> Prop :=
  | fifo_end l out : fifo [] l out l out
  | fifo_init ops l out l' out' : fifo ops [] out l' out' -> fifo (Init :: ops) l out l' out'
  | fifo_enq n ops l out l' out' : n <> 0 -> ~ In n l -> (Z.of_nat (S (length l)) < two32)%Z -> fifo ops (l ++ [n]) out l' out' -> fifo (Enq n :: ops) l out l' out'
  | fifo_deq n ops l out l' out' : fifo ops l (out ++ [n]) l' out' -> fifo (Deq :: ops) (n :: l) out l' out'.
(** the nodes that are enqueued, in order *)
Fixpoint enqueued_nodes (ops : list op) : list nat :=
  match ops with [] => [] | Enq n :: ops => n :: enqueued_nodes ops | _ :: ops => enqueued_nodes ops end.
