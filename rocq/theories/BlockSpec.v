(** Blocks as a user sees them. *)
From Verif Require Import Base BlockModel.

Section Spec.
Variable V : Type.
Variable zero : V.
(** sample [i] of channel [c] *)
Definition sample_at (m : mem V) (b : block) (c i : nat) : option V := p <- channel b c ;; load V m p i.
(** the channels are separate arrays of their own with at least [size] samples *)
Definition owns (m : mem V) (b : block) (address : nat -> nat) : Prop :=
  forall c, c < b_channels b -> channel b c = Some (address c, 0) /\ (exists a, cells V m (address c) = Some a /\ b_size b <= length a) /\
    forall c', c' < b_channels b -> address c = address c' -> c = c'.
(** everything else is as before *)
Definition unchanged_but (m m' : mem V) (n : nat) (address : nat -> nat) : Prop :=
  forall q, (forall c, c < n -> q <> address c) -> cells V m' q = cells V m q.
End Spec.
