(** What paths with cubic curves are. *)
From Coq Require Import QArith Qround Qabs.
From Verif Require Import Base PathModel PathSpec.
Close Scope Q_scope.

(** Parts of paths: positions of end points are integers, control points of cubic curves have any position.
    A part begins where the previous one ended, the first at (0, 0). *)
Inductive cpart := CMove (x : Z) (y : Q) | CLine (x : Z) (y : Q) | CCubic (c d : point) (x : Z) (y : Q).
(** the calls that make the parts *)
Definition cbuild (a : cpart) : segment :=
  match a with
  | CMove x y => seg_move (inject_Z x) y
  | CLine x y => seg_line (inject_Z x) y
  | CCubic c d x y => seg_bezier2 (px c) (py c) (px d) (py d) (inject_Z x) y
  end.
(** where a part ends *)
Definition cend (a : cpart) : Z * Q := match a with CMove x y | CLine x y | CCubic _ _ x y => (x, y) end.
(** parts do not go back, lines and curves are not empty, and the control points of curves are in order between the end points *)
Fixpoint ordered (x0 : Z) (l : list cpart) : Prop :=
  match l with
  | [] => True
  | a :: l => (x0 <= fst (cend a) < two32)%Z /\
    match a with
    | CMove _ _ => True
    | CLine x _ => (x0 < x)%Z
    | CCubic c d x _ => (x0 < x)%Z /\ (inject_Z x0 <= px c)%Q /\ (px c <= px d)%Q /\ (px d <= inject_Z x)%Q
    end /\
    ordered (fst (cend a)) l
  end.
(** the cubic curve with the end points a and b and the control points c and d *)
Definition cubic (a c d b t : Q) : Q := (a * (1 - t) * (1 - t) * (1 - t) + 3 * c * (1 - t) * (1 - t) * t + 3 * d * (1 - t) * t * t + b * t * t * t)%Q.
(** v is the height of a point of the curve that is at most half a sample away from k *)
Definition near (p c d q : point) (k : Z) (v : Q) : Prop :=
  exists t, (0 <= t <= 1)%Q /\ (Qabs (cubic (px p) (px c) (px d) (px q) t - inject_Z k) <= 1 # 2)%Q /\ (v == cubic (py p) (py c) (py d) (py q) t)%Q.
(** the sample at position k of a curve: the height of a point of the curve, or the mean of the two neighbours where the curve has no point for k *)
Definition on_cubic (p c d q : point) (k : Z) (v : Q) : Prop :=
  near p c d q k v \/ exists u w, near p c d q (k - 1) u /\ near p c d q (k + 1) w /\ (v == (u + w) / 2)%Q.
(** the sample at position k of the part that begins at (x0, y0) *)
Definition csample (x0 : Z) (y0 : Q) (a : cpart) (k : Z) (v : Q) : Prop :=
  match a with
  | CMove _ _ => (v == 0)%Q
  | CLine x y => (v == straight (inject_Z x0) y0 (inject_Z x) y (inject_Z k))%Q
  | CCubic c d x y => on_cubic (inject_Z x0, y0) c d (inject_Z x, y) k v
  end.
(** where part i begins if the first begins at s *)
Definition cstart (s : Z * Q) (l : list cpart) (i : nat) : Z * Q := match i with O => s | S i => match nth_error l i with Some a => cend a | None => s end end.
Definition cfinal (s : Z * Q) (l : list cpart) : Z := fst (cstart s l (length l)).
