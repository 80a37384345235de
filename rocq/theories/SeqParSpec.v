From Verif Require Import Base SeqModel SeqSpec SeqLifeSpec SeqRenderSpec SeqParModel.

Section Spec.
Variables (F D K : Type).
Variables (zero : F) (add : F -> F -> F).
Notation event := (event D).
Variable prepare : event -> option event.
Variable generate : nat -> nat -> list F -> event -> option (list F * event * bool).
Variable init : nat -> nat -> list F -> event -> K.
Variable step : K -> K.
Variable done : K -> bool.
Variable result : K -> list F * event * bool.

(** the steps of a worker end with result [r] *)
Inductive computes : K -> list F * event * bool -> Prop :=
| computes_done : forall k, done k = true -> computes k (result k)
| computes_step : forall k r, done k = false -> computes (step k) r -> computes k r.

(** a worker does what the callbacks do: prepare, unless already done, then generate *)
Definition implements_callbacks : Prop :=
  forall a c block e e1 r,
    (if ev_prepare D e then option_map (prepared D) (prepare e) else Some e) = Some e1 ->
    generate a c block e1 = Some r -> computes (init a c block e) r.

(** the event adds a signal to what is there, for instance [fun k x => add x (signal k)] when zero is a left identity *)
Definition additive (g : stage F) : Prop := forall k x, g k x = add x (g k zero).

(** consecutive blocks, each with an arbitrary schedule in which the call returned successfully *)
Inductive par_blocks : nat -> list (nat * list F) -> list event -> list (list F) -> list event -> Prop :=
| par_nil : forall t l, par_blocks t [] l [] l
| par_cons : forall t u out rest l schedule s outs l',
    par_run F D K zero add init step done result t u schedule (par_init F D K out l) = Some s ->
    ps_phase F D K s = Finished ->
    par_blocks u rest (par_events F D K result s) outs l' ->
    par_blocks t ((u, out) :: rest) l (ps_out F D K s :: outs) l'.
End Spec.
