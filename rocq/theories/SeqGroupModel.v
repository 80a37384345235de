(** Group events: an event whose configuration is an event list.

    The list is represented abstractly (the refinement of sp_seq on the heap to [seq_list] is proved in SeqSeqProofs);
    reversing the empty list, which is undefined, is avoided by sp_group_prepare. Leaf events have arbitrary callbacks on
    their own data. The nesting depth bounds the recursion of [tgenerate]. *)
From Verif Require Import Base SeqModel SeqSpec.

Section Group.
Variables (F D : Type).
Inductive tree := TLeaf (d : D) | TGroup (l : list (event tree)).

Variable leaf_prepare : D -> option D.
Variable leaf_generate : nat -> nat -> list F -> D -> option (list F * D * bool).

Definition set_data (e : event tree) (d : tree) : event tree :=
  {| ev_id := ev_id _ e; ev_start := ev_start _ e; ev_end := ev_end _ e; ev_prepare := ev_prepare _ e; ev_free := ev_free _ e; ev_data := d |}.
Definition set_free (e : event tree) : event tree :=
  {| ev_id := ev_id _ e; ev_start := ev_start _ e; ev_end := ev_end _ e; ev_prepare := ev_prepare _ e; ev_free := true; ev_data := ev_data _ e |}.
Definition set_end (e : event tree) (n : nat) : event tree :=
  {| ev_id := ev_id _ e; ev_start := ev_start _ e; ev_end := n; ev_prepare := ev_prepare _ e; ev_free := ev_free _ e; ev_data := ev_data _ e |}.

(** sp_group_prepare, /repo/source/c-precompiled/sph-sp/sequencer.c:384-391 for groups *)
Definition tprepare (e : event tree) : option (event tree) :=
  match ev_data _ e with
  | TLeaf d => d <- leaf_prepare d ;; Some (set_data e (TLeaf d))
  | TGroup l => Some (set_free (set_data e (TGroup (rev l))))
  end.

(** sp_group_generate, sequencer.c:382 for groups: sp_seq on the list of the group *)
Fixpoint tgenerate (n : nat) (start end_ : nat) (out : list F) (e : event tree) : option (list F * event tree * bool) :=
  match ev_data _ e with
  | TLeaf d => '(out, d, ok) <- leaf_generate start end_ out d ;; Some (out, set_data e (TLeaf d), ok)
  | TGroup l =>
    match n with
    | O => None
    | S n =>
      '(ok, out, l, _) <- seq_list F tree tprepare (tgenerate n) start end_ out [] l [] ;;
      Some (out, set_data e (TGroup l), ok)
    end
  end.

(** shift in time. sp_event_schedule with zero duration, sequencer.c:230-237 *)
Definition tshift (t : nat) (e : event tree) : event tree :=
  {| ev_id := ev_id _ e; ev_start := t + ev_start _ e; ev_end := t + ev_end _ e; ev_prepare := ev_prepare _ e; ev_free := ev_free _ e; ev_data := ev_data _ e |}.

(** sp_group_add, sequencer.c:394-405, [ok]: the allocation succeeds. [None]: the event is not a group. Result: success,
    group. [prepare] is the prepare function of the event, here arbitrary as it may set the end of the event. *)
Variable prepare : event tree -> option (event tree).
Definition group_insert (e : event tree) (l : list (event tree)) : list (event tree) :=
  map snd (insert tree (0, e) (map (pair 0) l)).
Definition group_add (ok : bool) (group e : event tree) : option (bool * event tree) :=
  match ev_data _ group with
  | TLeaf _ => None
  | TGroup l =>
    let prep := if (ev_end _ e =? 0) && ev_prepare _ e then option_map (prepared tree) (prepare e) else Some e in
    match prep with
    | None => Some (false, group)
    | Some e =>
      if ok then
        let group := set_data group (TGroup (group_insert e l)) in
        Some (true, if ev_end _ group <? ev_end _ e then set_end group (ev_end _ e) else group)
      else Some (false, group)
    end
  end.

(** sp_group_append, sequencer.c:406-417 *)
Definition group_append (ok : bool) (group e : event tree) : option (bool * event tree) :=
  match ev_data _ group with
  | TLeaf _ => None
  | TGroup l =>
    let prep := if (ev_end _ e =? 0) && ev_prepare _ e then option_map (prepared tree) (prepare e) else Some e in
    match prep with
    | None => Some (false, group)
    | Some e =>
      let e := tshift (ev_end _ group) e in
      let group := set_end group (ev_end _ e) in
      if ok then Some (true, set_data group (TGroup (group_insert e l))) else Some (false, group)
    end
  end.
End Group.
