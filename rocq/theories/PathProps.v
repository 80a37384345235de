(** C51, C52, C80: paths. *)
From Coq Require Import QArith Qround Qabs Lqa.
From Verif Require Import Base PathModel PathSpec PathProofs Path2Proofs Path3Proofs BezProofs CurveProofs Curve2Proofs Path4Proofs PathWinProofs.
Close Scope Q_scope.

(** ** C51 Line paths interpolate linearly and join *)
(** For every list of points with ascending positions, also fractional ones: every position is written, and the samples between the integer parts of the positions of two points
    have the slope of the line between the points and begin with the value of the first point at the integer part of its position.
    Missing for the full property: with fractional positions the line is shifted, see c51_fraction_refuted. *)
Theorem c51_lines_partial : forall root fuel size n x y c, 2 <= n <= 24 -> length y = n -> length x = n - 2 ->
  match c with Some cs => length cs = n - 1 /\ Forall (fun a => a < 1 # 100000)%Q cs | None => True end ->
  sorted (0%Q :: x ++ [inject_Z size]) -> (0 <= size < two32)%Z ->
  exists out, path_samples root fuel size n x y c = Some (true, out) /\ length out = Z.to_nat size /\
    (forall i p q k, nth_error (knots size x y) i = Some p -> nth_error (knots size x y) (S i) = Some q -> (Qfloor (px p) <= Z.of_nat k < Qfloor (px q))%Z ->
      exists v, nth_error out k = Some v /\ (v == py p + inject_Z (Z.of_nat k - Qfloor (px p)) / (px q - px p) * (py q - py p))%Q) /\
    (forall k, k < Z.to_nat size -> exists i p q, nth_error (knots size x y) i = Some p /\ nth_error (knots size x y) (S i) = Some q /\ (Qfloor (px p) <= Z.of_nat k < Qfloor (px q))%Z).
Proof. exact path_samples_lines. Qed.
Print Assumptions c51_lines_partial.
(** at integer positions: the linear interpolation, and the value of the point itself where segments join *)
Theorem c51_integer_points : forall root fuel size n xs y c, 2 <= n <= 24 -> length y = n -> length xs = n - 2 ->
  match c with Some cs => length cs = n - 1 /\ Forall (fun a => a < 1 # 100000)%Q cs | None => True end ->
  sorted (0%Q :: map inject_Z xs ++ [inject_Z size]) -> (0 <= size < two32)%Z ->
  exists out, path_samples root fuel size n (map inject_Z xs) y c = Some (true, out) /\ length out = Z.to_nat size /\
    (forall i p q k, nth_error (knots size (map inject_Z xs) y) i = Some p -> nth_error (knots size (map inject_Z xs) y) (S i) = Some q -> (px p <= inject_Z (Z.of_nat k) < px q)%Q ->
      exists v, nth_error out k = Some v /\ (v == straight (px p) (py p) (px q) (py q) (inject_Z (Z.of_nat k)))%Q /\ (inject_Z (Z.of_nat k) == px p -> v == py p)%Q).
Proof. exact path_samples_integer. Qed.
Print Assumptions c51_integer_points.
Example c51_case : path_samples (fun q => q) 0 10 3 [4%Q] [0%Q; 8%Q; 2%Q] None = Some (true, [0 # 4; 8 # 4; 16 # 4; 24 # 4; 48 # 6; 42 # 6; 36 # 6; 30 # 6; 24 # 6; 18 # 6]%Q) /\ sorted (0%Q :: map inject_Z [4%Z] ++ [inject_Z 10]).
Proof. split; [vm_compute; reflexivity|]. cbn. repeat split; discriminate. Qed.
(** with a point at 5/2 the value at 2 is that of the point, 5, not that of the line to it, 4 *)
Theorem c51_fraction_refuted : exists size n x y out v, 2 <= n <= 24 /\ length y = n /\ length x = n - 2 /\ sorted (0%Q :: x ++ [inject_Z size]) /\
  path_samples (fun q => q) 0 size n x y None = Some (true, out) /\ nth_error out 2 = Some v /\
  nth_error (knots size x y) 0 = Some (0%Q, 0%Q) /\ nth_error (knots size x y) 1 = Some (5 # 2, 5%Q)%Q /\ (0 <= 2 < 5 # 2)%Q /\ ~ (v == straight 0 0 (5 # 2) 5 2)%Q.
Proof.
  exists 10%Z, 3, [5 # 2]%Q, [0%Q; 5%Q; 0%Q]. eexists. eexists. split; [lia|]. split; [reflexivity|]. split; [reflexivity|]. split; [cbn; repeat split; discriminate|]. split; [vm_compute; reflexivity|]. split; [vm_compute; reflexivity|]. split; [reflexivity|]. split; [reflexivity|]. split; [split; [discriminate|reflexivity]|]. vm_compute. discriminate.
Qed.
Print Assumptions c51_fraction_refuted.

(** ** C52 Paths can be sampled in pieces *)
(** For every path of moves, lines and constants with integer positions, and all windows that begin at or after the end or before the start of the one requested before:
    the samples are those of the path, independent of what has been requested before.
    Missing for the full property: windows that overlap the previous one and begin inside of it (c52_overlap_refuted), paths in paths (c52_nested_refuted), fractional positions (c52_fraction_refuted) and curves (c80_window_refuted). *)
Theorem c52_windows_partial : forall root fuel parts ws, parts <> [] -> ascending 0 parts -> allowed 0 0 ws ->
  exists p outs, path_set root (map build parts) = Some p /\ get_all fuel p ws = Some outs /\ Forall2 (Forall2 Qeq) outs (map (samples_of (pieces_of 0 0 parts)) ws).
Proof. exact path_windows. Qed.
Print Assumptions c52_windows_partial.
Theorem c52_consecutive_partial : forall root fuel parts ws size, parts <> [] -> ascending 0 parts -> (0 <= size)%Z -> consecutive 0 size ws ->
  exists p outs whole, path_set root (map build parts) = Some p /\ get_all fuel p ws = Some outs /\ get_all fuel p [(0%Z, size)] = Some [whole] /\ Forall2 Qeq (concat outs) whole.
Proof. exact path_consecutive. Qed.
Print Assumptions c52_consecutive_partial.
Example c52_case : exists p outs, path_set (fun q => q) (map build [PMove 2 4; PLine 6 8; PConstant]) = Some p /\ ascending 0 [PMove 2 4; PLine 6 8; PConstant] /\
  allowed 0 0 [(5, 8); (0, 4); (4, 5)]%Z /\ get_all 0 p [(5, 8); (0, 4); (4, 5)]%Z = Some outs /\ map (map Qred) outs = [[7; 8; 8]; [0; 0; 4; 5]; [6]]%Q.
Proof. eexists. eexists. split; [reflexivity|]. split; [cbn; unfold far; repeat split; lia|]. split; [cbn; repeat split; lia|]. split; vm_compute; reflexivity. Qed.
(** the window from 2 to 5 after the one from 0 to 10: nothing is written *)
Theorem c52_overlap_refuted : exists p out, path_set (fun q => q) (map build [PMove 0 5; PLine 6 11; PLine 10 15]) = Some p /\
  get_all 0 p [(0, 10); (2, 5)]%Z = Some [out; [0; 0; 0]%Q] /\ exists out', get_all 0 p [(2, 5)%Z] = Some [out'] /\ map Qred out' = [7; 8; 9]%Q.
Proof. eexists. eexists. split; [reflexivity|]. split; [vm_compute; reflexivity|]. eexists. split; vm_compute; reflexivity. Qed.
Print Assumptions c52_overlap_refuted.
(** a path as the only segment of another path is not drawn, whatever the path is *)
Theorem c52_nested_refuted : forall root fuel sub_end size, (0 <= size)%Z -> exists p, path_set root [seg_path sub_end] = Some p /\ get_all fuel p [(0%Z, size)] = Some [repeat 0%Q (Z.to_nat size)].
Proof. exact path_nested. Qed.
Print Assumptions c52_nested_refuted.
(** a line from (1/2, 0) to (10, 19), sampled in one and in two windows: at 5 the first has 10, the second 8 *)
Theorem c52_fraction_refuted : exists p a b c, path_set (fun q => q) [seg_move (1 # 2) 0; seg_line 10 19] = Some p /\ get_all 0 p [(0, 10)]%Z = Some [a] /\ get_all 0 p [(0, 5); (5, 10)]%Z = Some [b; c] /\
  option_map Qred (nth_error a 5) = Some 10%Q /\ option_map Qred (nth_error c 0) = Some 8%Q.
Proof. eexists. eexists. eexists. eexists. split; [reflexivity|]. split; [vm_compute; reflexivity|]. split; [vm_compute; reflexivity|]. split; vm_compute; reflexivity. Qed.
Print Assumptions c52_fraction_refuted.

(** ** C80 Curved paths *)
(** For every list of points with increasing integer positions and every list of curvatures up to 1, if curved segments rise or are not steeper than 45 degree:
    sampling ends, stays inside of the array, and every sample is that of the line, or a point of the quadratic curve that is at most half a sample away.
    Missing for the full property: windows that begin inside of curves, steep falling curves, fractional positions (refuted below). *)
Theorem c80_curves_partial : forall root fuel size n xs y cs, (forall r, (0 < r)%Q -> ~ (root r == 0)%Q) -> 2 <= n <= 24 -> length y = n -> length xs = n - 2 -> length cs = n - 1 ->
  increasing (0%Z :: xs ++ [size]) -> (size < two32)%Z -> S (Z.to_nat (2 * size)) <= fuel ->
  (forall i p q c, nth_error (knots size (map inject_Z xs) y) i = Some p -> nth_error (knots size (map inject_Z xs) y) (S i) = Some q -> nth_error cs i = Some c -> gentle p q c) ->
  exists out, path_samples root fuel size n (map inject_Z xs) y (Some cs) = Some (true, out) /\ length out = Z.to_nat size /\
    forall i p q c k, nth_error (knots size (map inject_Z xs) y) i = Some p -> nth_error (knots size (map inject_Z xs) y) (S i) = Some q -> nth_error cs i = Some c -> (px p <= inject_Z (Z.of_nat k) < px q)%Q ->
      exists v, nth_error out k = Some v /\ sampled p q c (Z.of_nat k) v.
Proof. exact path_samples_curves. Qed.
Print Assumptions c80_curves_partial.
(** the control point is on the perpendicular through the middle of the line and inside of the rectangle around the line *)
Theorem c80_control_point : forall p q c, (px p < px q)%Q -> (0 <= c <= 1)%Q -> ~ (py p == py q)%Q ->
  ((px (arc_control p q c) - (px p + px q) / 2) * (px q - px p) + (py (arc_control p q c) - (py p + py q) / 2) * (py q - py p) == 0)%Q /\
  (px p <= px (arc_control p q c) <= px q)%Q /\ (py p <= py q -> py p <= py (arc_control p q c) <= py q)%Q /\ (py q <= py p -> py q <= py (arc_control p q c) <= py p)%Q.
Proof. exact control_inside. Qed.
Print Assumptions c80_control_point.
Example c80_case : exists out, path_samples (fun q => q) 30 8 3 [4%Q] [0%Q; 3%Q; 0%Q] (Some [1; 1 # 2]%Q) = Some (true, out) /\ map Qred out = [0; 3 # 16; 27 # 64; 27 # 16; 3; 81 # 32; 15 # 8; 33 # 32]%Q /\
  gentle (0%Q, 0%Q) (4%Q, 3%Q) 1 /\ gentle (4%Q, 3%Q) (8%Q, 0%Q) (1 # 2) /\ increasing (0%Z :: [4%Z] ++ [8%Z]).
Proof. eexists. split; [vm_compute; reflexivity|]. split; [vm_compute; reflexivity|]. unfold gentle. cbn. repeat split; try discriminate; auto. Qed.
(** windows that begin inside of a curve are undefined, elements before the array are written. For every quadratic curve between whole positions: if the control point is at most in the middle then for every
    window that begins two or more samples after the start of the curve, and for every control point before the end for every window that begins further than the square root of twice the length. *)
Theorem c80_window_refuted : forall root fuel (x0 x2 start fin : Z) (y0 c yc y2 : Q), (0 <= x0)%Z -> (x0 < start < x2)%Z -> (start < fin)%Z ->
  ((c <= (inject_Z x0 + inject_Z x2) / 2)%Q /\ (x0 + 2 <= start)%Z \/ (c <= inject_Z x2)%Q /\ (2 * (x2 - x0) < (start - x0) * (start - x0))%Z) -> (x2 < two32)%Z -> 0 < fuel ->
  exists p, path_set root [seg_move (inject_Z x0) y0; seg_bezier1 c yc (inject_Z x2) y2] = Some p /\ get_all fuel p [(start, fin)] = None.
Proof. exact path_window. Qed.
Print Assumptions c80_window_refuted.
Example c80_window_case : exists p, path_set (fun q => q) [seg_move 0 0; seg_arc 10 5 1] = Some p /\ get_all 100 p [(0, 10)%Z] <> None /\ get_all 100 p [(0, 4); (4, 10)]%Z = None.
Proof. eexists. split; [reflexivity|]. split; [vm_compute; discriminate|vm_compute; reflexivity]. Qed.
Theorem c80_steep_refuted : path_samples (fun q => q) 100 10 2 [] [100%Q; 0%Q] (Some [1%Q]) = None.
Proof. vm_compute. reflexivity. Qed.
Print Assumptions c80_steep_refuted.
(** with a point at 7/2 the position 3 is not written *)
Theorem c80_fraction_refuted : exists out, path_samples (fun q => q) 100 10 3 [7 # 2]%Q [1%Q; 2%Q; 3%Q] (Some [1%Q; 1%Q]) = Some (true, out) /\ nth_error out 3 = Some 0%Q.
Proof. eexists. split; vm_compute; reflexivity. Qed.
Print Assumptions c80_fraction_refuted.
(** a horizontal curve depends on its absolute height: between points at height 0 it is straight, between points at height 8 it leaves the rectangle *)
Theorem c80_horizontal_refuted : exists out out', path_samples (fun q => q) 100 4 2 [] [0%Q; 0%Q] (Some [1%Q]) = Some (true, out) /\ map Qred out = [0; 0; 0; 0]%Q /\
  path_samples (fun q => q) 100 4 2 [] [8%Q; 8%Q] (Some [1%Q]) = Some (true, out') /\ (exists v, In v out' /\ (8 < v)%Q).
Proof. eexists. eexists. split; [vm_compute; reflexivity|]. split; [vm_compute; reflexivity|]. split; [vm_compute; reflexivity|]. eexists. split; [right; left; reflexivity|]. vm_compute. reflexivity. Qed.
Print Assumptions c80_horizontal_refuted.
