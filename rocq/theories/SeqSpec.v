(** Abstract event lists: what the linked structure represents and what the operations are meant to do on it. *)
From Verif Require Import Base SeqModel.

Section Spec.
Variables (F D : Type).
Notation event := (event D).
Notation heap := (heap D).

(** [dll h previous l head next]: starting at [head], the nodes of [h] form a doubly linked chain with the addresses and
    events of [l]; [previous] is the back link of the first node and [next] the forward link of the last one. *)
Fixpoint dll (h : heap) (previous : option nat) (l : list (nat * event)) (head next : option nat) : Prop :=
  match l with
  | [] => head = next
  | (p, e) :: rest =>
    head = Some p /\
    exists second, nodes D h p = Some {| n_previous := previous; n_next := second; n_event := e |} /\ dll h (Some p) rest second next
  end.

(** a complete list: correctly linked, no node twice, all addresses previously allocated *)
Definition represents (h : heap) (head : option nat) (l : list (nat * event)) : Prop :=
  dll h None l head None /\ NoDup (map fst l) /\ Forall (fun x => fst x < fresh D h) l.

(** insertion before the first event that starts at or before the new one *)
Fixpoint insert (x : nat * event) (l : list (nat * event)) : list (nat * event) :=
  match l with
  | [] => [x]
  | y :: rest => if ev_start D (snd y) <=? ev_start D (snd x) then x :: l else y :: insert x rest
  end.

(** events with start time [t] *)
Definition starting_at (t : nat) (l : list event) : list event := filter (fun e => ev_start D e =? t) l.

(** ascending by start *)
Fixpoint sorted (l : list event) : Prop :=
  match l with
  | [] => True
  | e :: rest => Forall (fun e' => ev_start D e <= ev_start D e') rest /\ sorted rest
  end.

(** descending by start: the order of lists to which events are still added *)
Fixpoint descending (l : list event) : Prop :=
  match l with [] => True | e :: rest => Forall (fun e' => ev_start D e' <= ev_start D e) rest /\ descending rest end.

Definition free_log (l : list event) : list (action D) := map (AFree D) (filter (ev_free D) l).

(** Histories of list operations. [LAdd ok e]: sp_event_list_add whose allocation succeeds iff [ok]; [LRemove p]:
    sp_event_list_remove of the element at address [p]; [LReverse]: sp_event_list_reverse. *)
Inductive list_op := LAdd (ok : bool) (e : event) | LRemove (p : nat) | LReverse.

(** running the operations of the program *)
Fixpoint run_ops (ops : list list_op) (head : option nat) (h : heap) : option (option nat * heap) :=
  match ops with
  | [] => Some (head, h)
  | LAdd ok e :: rest => '(_, head, h) <- list_add D ok head e h ;; run_ops rest head h
  | LRemove p :: rest => '(head, h, _) <- list_remove D head p h ;; run_ops rest head h
  | LReverse :: rest => '(head, h) <- list_reverse D head h ;; run_ops rest head h
  end.

(** what they are to do, on lists of (address, event). [None]: not allowed (removing an element that is not in the list,
    reversing the empty list). [next] is the address of the next new element. *)
Fixpoint ops_spec (ops : list list_op) (next : nat) (l : list (nat * event)) : option (list (nat * event)) :=
  match ops with
  | [] => Some l
  | LAdd true e :: rest => ops_spec rest (S next) (insert (next, e) l)
  | LAdd false e :: rest => ops_spec rest next l
  | LRemove p :: rest =>
    if existsb (fun x => fst x =? p) l then ops_spec rest next (filter (fun x => negb (fst x =? p)) l) else None
  | LReverse :: rest => match l with [] => None | _ => ops_spec rest next (rev l) end
  end.

Definition empty_heap : heap := {| nodes := fun _ => None; fresh := 0 |}.

(** sp_seq on the abstract list *)
Variable prepare : event -> option event.
Variable generate : nat -> nat -> list F -> event -> option (list F * event * bool).

(** [kept]: events before [l] that stay in the list. Result: success, output, remaining events, log *)
Fixpoint seq_list (start end_ : nat) (out : list F) (kept l : list event) (log : list (action D))
  : option (bool * list F * list event * list (action D)) :=
  match l with
  | [] => Some (true, out, kept, log)
  | e :: rest =>
    if ev_end D e <=? start then seq_list start end_ out kept rest (log ++ free_log [e])
    else if end_ <=? ev_start D e then Some (true, out, kept ++ l, log)
    else
      let '(prep, log) :=
        if ev_prepare D e then (option_map (prepared D) (prepare e), log ++ [APrepare D (ev_id D e)]) else (Some e, log) in
      match prep with
      | None => Some (false, out, [], log ++ free_log (kept ++ e :: rest))
      | Some e1 =>
        '(out, e2, ok) <- call_generate F D generate start end_ out e1 ;;
        let log := log ++ [AGenerate D (ev_id D e1) (if ev_start D e1 <? start then start - ev_start D e1 else 0)
                             (Nat.min end_ (ev_end D e1) - ev_start D e1)] in
        if (ok : bool) then seq_list start end_ out (kept ++ [e2]) rest log
        else Some (false, out, [], log ++ free_log (kept ++ e2 :: rest))
      end
  end.
End Spec.
