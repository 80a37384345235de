(** What envelopes are. *)
From Coq Require Import QArith Qround Qabs.
From Verif Require Import Base PathModel PathSpec.
Close Scope Q_scope.

(** [v] is the value at position [k] of the lines between the points. Between the integer parts of the positions of two neighbouring points it has the
    slope of the line between them and begins with the value of the first (see c51_fraction_refuted for the shift at fractional positions) *)
Definition line_value (points : list point) (k : nat) (v : Q) : Prop :=
  exists i p q, nth_error points i = Some p /\ nth_error points (S i) = Some q /\ (Qfloor (px p) <= Z.of_nat k < Qfloor (px q))%Z /\
  (v == py p + inject_Z (Z.of_nat k - Qfloor (px p)) / (px q - px p) * (py q - py p))%Q.
(** samples that are those of the lines at every position below [size] *)
Definition follows_lines (size : Z) (points : list point) (out : list Q) : Prop :=
  length out = Z.to_nat size /\ forall k, k < Z.to_nat size -> exists v, nth_error out k = Some v /\ line_value points k v.
(** numbers that are the nearest integers to the values of the lines at every position below [size] *)
Definition rounds_lines (size : Z) (points : list point) (out : list Z) : Prop :=
  length out = Z.to_nat size /\ forall k, k < Z.to_nat size -> exists z v, nth_error out k = Some z /\ line_value points k v /\ (Qabs (inject_Z z - v) <= 1 # 2)%Q.
(** the points of an envelope: positions are parts of the length, each relative to the one before *)
Fixpoint summed (acc : Q) (parts : list Q) : list Q := match parts with [] => [] | a :: l => (acc + a)%Q :: summed (acc + a)%Q l end.
Definition envelope_points (size : Z) (parts ys : list Q) : list point :=
  combine (0%Q :: map (fun a => a * inject_Z size)%Q (summed 0 parts) ++ [inject_Z size]) ys.
(** the parts do not exceed the whole *)
Definition proper_parts (parts : list Q) : Prop := Forall (fun a => 0 <= a)%Q parts /\ (fold_right Qplus 0 parts <= 1)%Q.
(** points that differ in the representation of rational numbers only *)
Definition same_points (a b : list point) : Prop := Forall2 (fun p q => px p == px q /\ py p == py q)%Q a b.
(** the sum of the elements from index 2 to [i] *)
Fixpoint sum_from_2 (x : list Q) (i : nat) : Q := match i with O | 1 => 0%Q | S j => (sum_from_2 x j + nth i x 0)%Q end.
