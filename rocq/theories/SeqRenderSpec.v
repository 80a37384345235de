(** What rendering a list of events means. *)
From Verif Require Import Base SeqModel SeqSpec SeqLifeSpec.

(** apply a position dependent function to every element, the first one has position [t] *)
Fixpoint mapi {A : Type} (f : nat -> A -> A) (t : nat) (l : list A) : list A :=
  match l with [] => [] | x :: rest => f t x :: mapi f (S t) rest end.

Section Spec.
Variables (F D : Type).
Notation event := (event D).
Variable prepare : event -> option event.
Variable generate : nat -> nat -> list F -> event -> option (list F * event * bool).

(** What an event does to the frame at event relative time [k]. For a usual event this adds its own signal:
    [fun k x => x + signal k]. *)
Definition stage := nat -> F -> F.

(** The contract of an event's own callbacks, event [e] being at its relative position [pos]: generate from the current
    position to any later one applies the stage to exactly the frames in between, whatever these are and whatever follows
    them in the output, and leaves the event at the new position. [R] holds for the states that the event can have. *)
Definition keeps_contract (g : stage) (R : event -> nat -> Prop) : Prop :=
  forall e pos, R e pos ->
    (ev_prepare D e = true -> exists e', prepare e = Some e' /\ same D e' e /\ R (prepared D e') pos) /\
    (ev_prepare D e = false -> forall c o rest,
      pos <= c -> c <= ev_end D e - ev_start D e -> length o = c - pos ->
      exists e', generate pos c (o ++ rest) e = Some (mapi g pos o ++ rest, e', true) /\ same D e' e /\
        ev_prepare D e' = false /\ R e' c).
Definition plays (e : event) (pos : nat) (g : stage) : Prop := exists R, R e pos /\ keeps_contract g R.

(** the frame at time [t]: every event whose range contains [t] is applied once, in list order, at its own relative time *)
Definition active (e : event) (t : nat) : bool := (ev_start D e <=? t) && (t <? ev_end D e).
Definition frame (events : list (event * stage)) (t : nat) (x : F) : F :=
  fold_left (fun acc eg => if active (fst eg) t then snd eg (t - ev_start D (fst eg)) acc else acc) events x.
(** all frames of an output that starts at time [t] *)
Definition render (events : list (event * stage)) (t : nat) (out : list F) : list F := mapi (frame events) t out.

(** every output is at least as long as its block *)
Fixpoint blocks_fit (t : nat) (blocks : list (nat * list F)) : Prop :=
  match blocks with [] => True | (u, out) :: rest => t < u /\ u - t <= length out /\ blocks_fit u rest end.
(** expected outputs: frames from the block start to the block end rendered, the others unchanged *)
Fixpoint render_blocks (events : list (event * stage)) (t : nat) (blocks : list (nat * list F)) : list (list F) :=
  match blocks with
  | [] => []
  | (u, out) :: rest => (render events t (firstn (u - t) out) ++ skipn (u - t) out) :: render_blocks events u rest
  end.
(** every output is exactly as long as its block *)
Fixpoint blocks_exact (t : nat) (blocks : list (nat * list F)) : Prop :=
  match blocks with [] => True | (u, out) :: rest => t < u /\ length out = u - t /\ blocks_exact u rest end.
End Spec.
