(** Consecutive sp_seq calls and the life cycle of events. *)
From Verif Require Import Base SeqModel SeqSpec.

Section Spec.
Variables (F D : Type).
Notation event := (event D).
Variable prepare : event -> option event.
Variable generate : nat -> nat -> list F -> event -> option (list F * event * bool).

Record run_result := {
  rr_ok : bool; rr_outs : list (list F); rr_end : nat; rr_head : option nat; rr_heap : heap D; rr_log : list (action D)
}.

(** Render consecutive blocks: each block is given by its end time and its output, the first starts at [t], every other
    one where the previous one ended.  Stops at the first failure. *)
Fixpoint run_blocks (t : nat) (blocks : list (nat * list F)) (head : option nat) (h : heap D) : option run_result :=
  match blocks with
  | [] => Some {| rr_ok := true; rr_outs := []; rr_end := t; rr_head := head; rr_heap := h; rr_log := [] |}
  | (u, out) :: rest =>
    r <- sp_seq F D prepare generate t u out head h ;;
    if sr_ok F D r then
      q <- run_blocks u rest (sr_head F D r) (sr_heap F D r) ;;
      Some {| rr_ok := rr_ok q; rr_outs := sr_out F D r :: rr_outs q; rr_end := rr_end q; rr_head := rr_head q;
              rr_heap := rr_heap q; rr_log := sr_log F D r ++ rr_log q |}
    else
      Some {| rr_ok := false; rr_outs := [sr_out F D r]; rr_end := u; rr_head := sr_head F D r; rr_heap := sr_heap F D r;
              rr_log := sr_log F D r |}
  end.

(** block end times increase *)
Fixpoint ascending (t : nat) (blocks : list (nat * list F)) : Prop :=
  match blocks with [] => True | (u, _) :: rest => t < u /\ ascending u rest end.

(** [same a b]: [a] can be a later state of event [b]: same identity and time range, and a free function if [b] has one *)
Definition same (a b : event) : Prop :=
  ev_id D a = ev_id D b /\ ev_start D a = ev_start D b /\ ev_end D a = ev_end D b /\ (ev_free D b = true -> ev_free D a = true).

Definition action_id (a : action D) : nat :=
  match a with APrepare i => i | AGenerate i _ _ => i | AFree e => ev_id D e end.
(** the callbacks of one event *)
Definition acts_of (i : nat) (log : list (action D)) : list (action D) := filter (fun a => action_id a =? i) log.

(** generate calls of event [i] that cover the event-relative range from [a] to [b] without gap or overlap *)
Fixpoint tiles (i a b : nat) (calls : list (action D)) : Prop :=
  match calls with
  | [] => a = b
  | AGenerate j x y :: rest => j = i /\ x = a /\ x <= y /\ tiles i y b rest
  | _ => False
  end.

Definition callbacks_keep_identity : Prop :=
  (forall e e', prepare e = Some e' -> same e' e) /\
  (forall a c o e o' e' ok, generate a c o e = Some (o', e', ok) -> same e' e /\ ev_prepare D e' = ev_prepare D e).

(** Life cycle of event [e] while the blocks from [t] to [u] were rendered, [acts] being the calls of its callbacks:
    - prepare at most once, before all generate calls, and not at all if it has no prepare function;
    - generate calls that tile the event-relative range from the first rendered time, never beyond the event end, and on
      success up to the last rendered time;
    - it is either still in the list ([remaining]) and not freed, or it is gone from the list and its free function, if it
      has one, was called exactly once and last; on success this happens only after its end. *)
Definition life (e : event) (t u : nat) (ok : bool) (remaining : list event) (acts : list (action D)) : Prop :=
  exists e' prep gens tail v,
    acts = prep ++ gens ++ tail /\ same e' e /\
    (prep = [] \/ (ev_prepare D e = true /\ prep = [APrepare D (ev_id D e)])) /\
    (ev_prepare D e = true -> gens <> [] -> prep <> []) /\
    tiles (ev_id D e) (t - ev_start D e) v gens /\
    (ev_end D e <= t -> gens = []) /\
    (gens = [] \/ v <= ev_end D e - ev_start D e) /\
    (ok = true -> t < ev_end D e -> v = Nat.min u (ev_end D e) - ev_start D e) /\
    ((tail = [] /\ ok = true /\ In e' remaining) \/
     (tail = free_log D [e'] /\ ~ In (ev_id D e) (map (ev_id D) remaining) /\ (ok = true -> ev_end D e <= u))).
End Spec.
