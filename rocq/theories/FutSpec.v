(** What users of futures rely on. *)
From Verif Require Import Base PoolModel PoolSpec FutModel.

Section Futures.
Variable D : Type.
(** the function and data last given to future t *)
Fixpoint given (t : nat) (es : list (fevent D)) (a : option ((D -> D) * D)) : option ((D -> D) * D) :=
  match es with
  | [] => a
  | Enqueue u x :: es => given t es (if u =? t then Some x else a)
  | _ :: es => given t es a
  end.
(** a future is used again only if it is finished *)
Fixpoint proper (es : list (fevent D)) (used : list nat) (s : fpool D) : Prop :=
  match es with
  | [] => True
  | e :: es =>
    match fstep D e s with
    | Next s' =>
      match e with
      | Enqueue t _ => (In t used -> is_finished D s t = true) /\ proper es (t :: used) s'
      | _ => proper es used s'
      end
    | _ => True
    end
  end.
Definition no_new (t : nat) (es : list (fevent D)) : Prop := forall x, ~ In (Enqueue _ t x) es.
End Futures.
