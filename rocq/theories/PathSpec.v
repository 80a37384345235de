(** What paths are. *)
From Coq Require Import QArith Qround Qabs.
From Verif Require Import Base PathModel.
Close Scope Q_scope.

(** a path described by its parts. Positions are integers. A part begins where the previous one ended, the first at (0, 0) *)
Inductive part := PMove (x : Z) (y : Q) | PLine (x : Z) (y : Q) | PConstant.
(** the value at an integer position between [a] inclusive and [b] exclusive *)
Record piece := mkpiece { from : Z; upto : Z; value : Z -> Q }.
(** the straight line from (x0, y0) to (x1, y1) at position k *)
Definition straight (x0 y0 x1 y1 : Q) (k : Q) : Q := (y0 + (y1 - y0) * ((k - x0) / (x1 - x0)))%Q.
Definition far : Z := 9223372036854775808.
Fixpoint pieces_of (x0 : Z) (y0 : Q) (l : list part) : list piece :=
  match l with
  | [] => []
  | PMove x y :: l => mkpiece x0 x (fun _ => 0%Q) :: pieces_of x y l
  | PLine x y :: l => mkpiece x0 x (fun k => straight (inject_Z x0) y0 (inject_Z x) y (inject_Z k)) :: pieces_of x y l
  | PConstant :: l => mkpiece x0 far (fun _ => y0) :: pieces_of far y0 l
  end.
(** positions do not decrease and nothing follows a constant *)
Fixpoint ascending (x0 : Z) (l : list part) : Prop :=
  match l with
  | [] => True
  | PMove x _ :: l | PLine x _ :: l => (x0 <= x < far)%Z /\ ascending x l
  | PConstant :: l => l = []
  end.
Definition piece_at (l : list piece) (k : Z) : option piece := find (fun p => (from p <=? k)%Z && (k <? upto p)%Z) l.
(** the value of the path. Zero, the initial value of arrays, where there is no part *)
Definition value_at (l : list piece) (k : Z) : Q := match piece_at l k with Some p => value p k | None => 0%Q end.
Definition samples_of (l : list piece) (w : Z * Z) : list Q := map (fun i => value_at l (fst w + Z.of_nat i)) (seq 0 (Z.to_nat (snd w - fst w))).
(** windows that can be requested one after the other: each begins at or after the end of the previous one, or before its start *)
Fixpoint allowed (start fin : Z) (ws : list (Z * Z)) : Prop :=
  match ws with
  | [] => True
  | (a, b) :: ws => (0 <= a <= b)%Z /\ (fin <= a \/ a < start)%Z /\ allowed a b ws
  end.

(** the calls that make the parts *)
Definition build (a : part) : segment := match a with PMove x y => seg_move (inject_Z x) y | PLine x y => seg_line (inject_Z x) y | PConstant => seg_constant end.
(** calls of spline_path_get for some windows, each with a new array *)
Fixpoint get_all (fuel : nat) (p : path) (ws : list (Z * Z)) : option (list (list Q)) :=
  match ws with
  | [] => Some []
  | (a, b) :: ws =>
    '(ended, out, p) <- path_get fuel p a b (repeat 0%Q (Z.to_nat (b - a))) 0 ;;
    if ended : bool then outs <- get_all fuel p ws ;; Some (out :: outs) else None
  end.
(** the points of a path given to sp_path_samples *)
Definition knots (size : Z) (x y : list Q) : list point := combine (0%Q :: x ++ [inject_Z size]) y.
Fixpoint sorted (l : list Q) : Prop := match l with a :: t => match t with b :: _ => (a <= b)%Q | [] => True end /\ sorted t | [] => True end.

(** ** Curves *)
(** the control point of a curve from p to q: on the perpendicular through the middle, for curvature 1 where the perpendicular leaves the rectangle with the corners p and q.
    For horizontal curves the middle is moved by half of the y position, as in the code *)
Definition arc_control (p q : point) (c : Q) : point :=
  let w := (px q - px p)%Q in
  let h := (py q - py p)%Q in
  let mx := ((px p + px q) / 2)%Q in
  let my := ((py p + py q) / 2)%Q in
  if Qeq_bool h 0 then (mx, (my + c / 2 * py q)%Q)
  else
    let s := if Qle_bool w (Qabs h) then (w / Qabs h)%Q else (Qabs h / w)%Q in
    ((mx + c / 2 * s * Qabs h)%Q, if Qle_bool 0 h then (my - c / 2 * s * w)%Q else (my + c / 2 * s * w)%Q).
(** the quadratic curve with the end points a and b and the control point c *)
Definition quadratic (a c b t : Q) : Q := (a * (1 - t) * (1 - t) + c * 2 * (1 - t) * t + b * t * t)%Q.
(** v is the sample at position k of the segment from p to q: on the line, or a point of the curve that is at most half a sample away *)
Definition sampled (p q : point) (c : Q) (k : Z) (v : Q) : Prop :=
  if qlt c (1 # 100000) then (v == straight (px p) (py p) (px q) (py q) (inject_Z k))%Q
  else let m := arc_control p q c in
    exists t, (0 <= t <= 1)%Q /\ (Qabs (quadratic (px p) (px m) (px q) t - inject_Z k) <= 1 # 2)%Q /\ (v == quadratic (py p) (py m) (py q) t)%Q.
(** which curves are supported: rising ones, and others that are not steeper than 45 degree *)
Definition gentle (p q : point) (c : Q) : Prop := (c <= 1)%Q /\ ((1 # 100000 <= c)%Q -> py p < py q \/ py p - py q <= px q - px p)%Q.
Fixpoint increasing (l : list Z) : Prop := match l with a :: t => match t with b :: _ => (a < b)%Z | [] => True end /\ increasing t | [] => True end.
(** windows that together are the one from a to b *)
Fixpoint consecutive (a b : Z) (ws : list (Z * Z)) : Prop := match ws with [] => a = b | (c, d) :: ws => c = a /\ (a <= d)%Z /\ consecutive d b ws end.
