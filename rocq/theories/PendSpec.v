(** Points of paths, and repeated use of the same segments. *)
From Coq Require Import QArith Qround.
From Verif Require Import Base PathModel PathSpec PendModel.
Close Scope Q_scope.

(** all kinds of segments but paths, with their given points *)
Inductive gpart := GMove (q : point) | GLine (q : point) | GConstant | GBezier1 (c q : point) | GBezier2 (c1 c2 q : point) | GArc (q : point) (curvature : Q).
Definition gbuild (g : gpart) : segment :=
  match g with
  | GMove q => seg_move (px q) (py q) | GLine q => seg_line (px q) (py q) | GConstant => seg_constant
  | GBezier1 c q => seg_bezier1 (px c) (py c) (px q) (py q) | GBezier2 c1 c2 q => seg_bezier2 (px c1) (py c1) (px c2) (py c2) (px q) (py q)
  | GArc q c => seg_arc (px q) (py q) c
  end.
(** the point to which a part leads *)
Definition target (g : gpart) : option point :=
  match g with GMove q | GLine q | GBezier1 _ q | GBezier2 _ _ q | GArc q _ => Some q | GConstant => None end.
(** the last point that was given, or the origin *)
Fixpoint last_point (p : point) (l : list gpart) : point :=
  match l with [] => p | g :: l => last_point (match target g with Some q => q | None => p end) l end.
(** only the last part can be a constant, and positions are less than the largest size *)
Fixpoint regular (l : list gpart) : Prop :=
  match l with [] => True | g :: l => match target g with Some q => (px q < size_max)%Q | None => l = [] end /\ regular l end.

(** calls of spline_path_segments_get with the same array of segments, each for a window with a new output array *)
Fixpoint get_repeatedly (root : Q -> Q) (fuel : nat) (a : array) (live : list nat) (ws : list (Z * Z)) : option (list (list Q) * array * list nat) :=
  match ws with
  | [] => Some ([], a, live)
  | (from, upto) :: ws =>
    '(out, a, live) <- segments_get root fuel a live from upto (repeat 0%Q (Z.to_nat (upto - from))) ;;
    '(outs, a, live) <- get_repeatedly root fuel a live ws ;;
    Some (out :: outs, a, live)
  end.
(** segments without data *)
Definition plain (l : list segment) : array := map (fun s => (s, None)) l.
