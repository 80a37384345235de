(** What nested groups are to render. *)
From Verif Require Import Base SeqModel SeqSpec SeqRenderSpec SeqGroupModel.

Section Spec.
Variables (F D : Type).
Notation tree := (tree D).
Notation tevent := (event tree).
Variable leaf_prepare : D -> option D.
Variable leaf_generate : nat -> nat -> list F -> D -> option (list F * D * bool).

(** contract of a leaf, as [plays]: [dur] is the duration, [need_prepare] whether prepare is still to be called *)
Definition leaf_contract (g : stage F) (dur : nat) (R : bool -> D -> nat -> Prop) : Prop :=
  (forall d pos, R true d pos -> exists d', leaf_prepare d = Some d' /\ R false d' pos) /\
  (forall d pos c o rest, R false d pos -> pos <= c -> c <= dur -> length o = c - pos ->
    exists d', leaf_generate pos c (o ++ rest) d = Some (mapi g pos o ++ rest, d', true) /\ R false d' c).
Definition leaf_plays (need_prepare : bool) (d : D) (dur : nat) (g : stage F) : Prop :=
  exists R, R need_prepare d 0 /\ leaf_contract g dur R.

(** All leaves below an event with their absolute times, in the order in which the events are rendered. Groups hold their
    list in reverse order before they are prepared. *)
Record leaf := { lf_start : nat; lf_end : nat; lf_prepare : bool; lf_data : D }.
Fixpoint leaves (offset start end_ : nat) (prep : bool) (t : tree) : list leaf :=
  match t with
  | TLeaf d => [{| lf_start := offset + start; lf_end := offset + end_; lf_prepare := prep; lf_data := d |}]
  | TGroup l =>
    fold_left (fun acc e => leaves (offset + start) (ev_start _ e) (ev_end _ e) (ev_prepare _ e) (ev_data _ e) ++ acc) l []
  end.
Definition event_leaves (offset : nat) (e : tevent) : list leaf :=
  leaves offset (ev_start _ e) (ev_end _ e) (ev_prepare _ e) (ev_data _ e).

(** the frame at time [t]: all leaves whose range contains [t], each at its own relative time *)
Definition leaf_frame (sig : D -> stage F) (ls : list leaf) (t : nat) (x : F) : F :=
  fold_left (fun acc l => if (lf_start l <=? t) && (t <? lf_end l) then sig (lf_data l) (t - lf_start l) acc else acc) ls x.

(** A tree as it is built with sp_group_add: groups are not yet prepared, their lists are in descending order, and they are
    at least as long as their events; every leaf plays its signal. [n] bounds the depth. *)
Fixpoint well_formed (sig : D -> stage F) (n : nat) (start end_ : nat) (prep : bool) (t : tree) : Prop :=
  start <= end_ /\
  match t with
  | TLeaf d => leaf_plays prep d (end_ - start) (sig d)
  | TGroup l =>
    match n with
    | O => False
    | S n =>
      prep = true /\ sorted tree (rev l) /\
      Forall (fun e => ev_end _ e <= end_ - start /\ well_formed sig n (ev_start _ e) (ev_end _ e) (ev_prepare _ e) (ev_data _ e)) l
    end
  end.
Definition well_formed_event (sig : D -> stage F) (n : nat) (e : tevent) : Prop :=
  well_formed sig n (ev_start _ e) (ev_end _ e) (ev_prepare _ e) (ev_data _ e).

(** Building groups. [adds]: events with whether the allocation of the list element succeeds. *)
Variable prepare : tevent -> option tevent.
Fixpoint add_all (adds : list (bool * tevent)) (group : tevent) : option (list bool * tevent) :=
  match adds with
  | [] => Some ([], group)
  | (ok, e) :: rest =>
    '(r, group) <- group_add D prepare ok group e ;; '(rs, group) <- add_all rest group ;; Some (r :: rs, group)
  end.
Fixpoint append_all (events : list tevent) (group : tevent) : option (list bool * tevent) :=
  match events with
  | [] => Some ([], group)
  | e :: rest =>
    '(r, group) <- group_append D prepare true group e ;; '(rs, group) <- append_all rest group ;; Some (r :: rs, group)
  end.

(** The events that are really added: an event whose end is still 0 is prepared first, which may set its end. An event
    whose preparation or allocation fails is not added. *)
Definition resolve (e : tevent) : option tevent :=
  if (ev_end _ e =? 0) && ev_prepare _ e then option_map (prepared tree) (prepare e) else Some e.
Definition added (adds : list (bool * tevent)) : list tevent :=
  flat_map (fun x : bool * tevent => if (fst x : bool) then match resolve (snd x) with Some e => [e] | None => [] end else []) adds.

(** back to back: every event starts at the end of the previous one, its own start being a rest before it *)
Fixpoint placed (t : nat) (events : list tevent) : list tevent :=
  match events with
  | [] => []
  | e :: rest => tshift D t e :: placed (t + ev_end _ e) rest
  end.
End Spec.
