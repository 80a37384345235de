(** Specification for scaling, limiting and converting arrays *)
From Verif Require Import Base.
From Coq Require Import QArith Qround Qminmax Qabs.
Open Scope nat_scope.

(** sum of rationals *)
Definition qsum (l : list Q) : Q := fold_right Qplus 0%Q l.
(** y is x rounded to an integer: at most one half away *)
Definition rounded (x : Q) (y : Z) : Prop := (x - (1 # 2) < inject_Z y <= x + (1 # 2))%Q.
(** little endian number of bytes *)
Fixpoint little_endian (bytes : list Z) : Z := match bytes with [] => 0 | b :: rest => b + 256 * little_endian rest end%Z.
Definition byte (b : Z) : Prop := (0 <= b < 256)%Z.
(** largest number of a list of numbers, 0 if there is none *)
Definition zmax (l : list Z) : Z := fold_right Z.max 0%Z l.
(** [b] holds the channels [a] frame by frame *)
Definition interleaved {V : Type} (a : list (list V)) (b : list V) (frames : nat) : Prop :=
  forall i c, i < frames -> c < length a -> exists x channel,
    nth_error a c = Some channel /\ nth_error channel i = Some x /\ nth_error b (i * length a + c) = Some x.

(** z is the fade from a to b at position t: rounded, between both, exact at the ends *)
Definition faded (a b : Z) (t : Q) (z : Z) : Prop :=
  rounded ((1 - t) * inject_Z a + t * inject_Z b)%Q z /\ (Z.min a b <= z <= Z.max a b)%Z /\ ((t == 0)%Q -> z = a) /\ ((t == 1)%Q -> z = b).
