(** Paths: /repo/source/c/foreign/sph-sc-lib/sph-sp/spline-path.c and /repo/source/c-precompiled/sph-sp/path.c.

    - Values are exact rational numbers in place of doubles.
    - Sizes (size_t, 64 bit) are in [Z]. Where a difference of sizes would be negative and wrap around, and is the number of loop repetitions or an index, the model has undefined
      behaviour: a loop of nearly 2^64 repetitions writes outside of any array.
    - [out] is the whole array of the caller, generate functions get the index of their first element in place of a pointer into it.
    - sqrt is a parameter. *)
From Coq Require Import QArith Qround.
From Verif Require Import Base.
Close Scope Q_scope.

Definition qlt (a b : Q) : bool := negb (Qle_bool b a).
(** conversion of a double to size_t: towards zero, undefined if the result is not representable *)
Definition to_size (a : Q) : option Z := if Qle_bool a (-1) || Qle_bool (inject_Z two64) a then None else Some (Z.max 0 (Qfloor a)).
(** round() of math.h: halfway cases away from zero *)
Definition qround (a : Q) : Q := inject_Z (if Qle_bool 0 a then Qfloor (a + (1 # 2))%Q else Qceiling (a - (1 # 2))%Q).
(** linearly_interpolate, spline-path.c:10 *)
Definition lerp (a b t : Q) : Q := (a + t * (b - a))%Q.

Definition point := (Q * Q)%type.
Definition px (p : point) : Q := fst p.
Definition py (p : point) : Q := snd p.
(** the fields generate and prepare of spline_path_segment_t, spline-path.h:42-49 *)
Inductive kind := Move | Constant | Line | Bezier1 | Bezier2 | SubPath (sub_end : point).
Inductive preparation := NoPrepare | PrepareConstant | PrepareArc | PreparePath.
Record segment := mkseg { points_count : nat; points : list point; generate : kind; prepare : preparation }.
(** spline_path_t, spline-path.h:52-57 *)
Record path := mkpath { segments : list segment; current_segment_index : nat; previous_start : Z }.
Definition zero : point := (0%Q, 0%Q).
(** SIZE_MAX / 2 converted to double *)
Definition size_max : Q := inject_Z 9223372036854775808.

(** ** Constructors, spline-path.c:219-281. Unset fields are zero *)
Definition seg_move (x y : Q) : segment := mkseg 2 [zero; (x, y); zero; zero] Move NoPrepare.
Definition seg_line (x y : Q) : segment := mkseg 2 [zero; (x, y); zero; zero] Line NoPrepare.
Definition seg_constant : segment := mkseg 2 [zero; zero; zero; zero] Constant PrepareConstant.
(** spline_path_path, malloc succeeds. [sub_end]: spline_path_end of the given path *)
Definition seg_path (sub_end : point) : segment := mkseg 1 [zero; zero; zero; zero] (SubPath sub_end) PreparePath.
Definition seg_bezier1 (x1 y1 x2 y2 : Q) : segment := mkseg 3 [zero; (x1, y1); (x2, y2); zero] Bezier1 NoPrepare.
Definition seg_bezier2 (x1 y1 x2 y2 x3 y3 : Q) : segment := mkseg 4 [zero; (x1, y1); (x2, y2); (x3, y3)] Bezier2 NoPrepare.
(** spline_path_bezier_arc, spline-path.c:366-375 *)
Definition seg_arc (x y c : Q) : segment := if Qeq_bool c 0 then seg_line x y else let s := seg_bezier1 0 c x y in mkseg (points_count s) (points s) (generate s) PrepareArc.

Section Path.
Variable root : Q -> Q.

(** spline_path_perpendicular_point, spline-path.c:285-358 *)
Definition perpendicular_point (p1 p2 : point) (distance : Q) : option point :=
  let c := (((px p1 + px p2) / 2)%Q, ((py p1 + py p2) / 2)%Q) in
  if Qeq_bool 0 distance then Some c
  else
    let d := ((-1 * (py p2 - py p1))%Q, (px p2 - px p1)%Q) in
    let '(i1, i2) :=
      if Qeq_bool 0 (px d) then ((px c, 0%Q), (px c, py p2))
      else if Qeq_bool 0 (py d) then ((0%Q, py c), (px p2, py c))
      else
        let '(b1x, b2x) := if qlt 0 (px d) then (px p2, px p1) else (px p1, px p2) in
        let '(b1y, b2y) := if qlt 0 (py d) then (py p2, py p1) else (py p1, py p2) in
        let t1x := ((b1x - px c) / px d)%Q in
        let t1y := ((b1y - py c) / py d)%Q in
        let t2x := ((b2x - px c) / px d)%Q in
        let t2y := ((b2y - py c) / py d)%Q in
        (if Qle_bool t1x t1y then (b1x, (py c + t1x * py d)%Q) else ((px c + t1y * px d)%Q, b1y),
         if Qle_bool t2y t2x then (b2x, (py c + t2x * py d)%Q) else ((px c + t2y * px d)%Q, b2y))
    in
    let m := root (px d * px d + py d * py d)%Q in
    (* division by zero gives no number *)
    _ <- need (negb (Qeq_bool m 0)) ;;
    let dx := ((px i2 - px i1) / m)%Q in
    let dy := ((py i2 - py i1) / m)%Q in
    Some ((px c + (1 # 2) * distance * m * dx)%Q, (py c + (1 # 2) * distance * m * dy)%Q).

(** the prepare functions, spline-path.c:58-66 and 359-362 *)
Definition run_prepare (s : segment) : option segment :=
  match prepare s with
  | NoPrepare => Some s
  | PrepareConstant =>
    p0 <- aget (points s) 0 ;; ps <- aset (points s) 1 (size_max, py p0) ;; Some (mkseg (points_count s) ps (generate s) (prepare s))
  | PrepareArc =>
    p0 <- aget (points s) 0 ;; p1 <- aget (points s) 1 ;; p2 <- aget (points s) 2 ;;
    p <- perpendicular_point p0 p2 (py p1) ;; ps <- aset (points s) 1 p ;; Some (mkseg (points_count s) ps (generate s) (prepare s))
  | PreparePath =>
    match generate s with
    | SubPath p => ps <- aset (points s) 1 p ;; Some (mkseg (points_count s) ps (generate s) (prepare s))
    | _ => None
    end
  end.
(** spline_path_prepare_segments, spline-path.c:69-83 *)
Fixpoint prepare_segments (start : point) (l : list segment) : option (list segment) :=
  match l with
  | [] => Some []
  | s :: l =>
    ps <- aset (points s) 0 start ;;
    s <- run_prepare (mkseg (points_count s) ps (generate s) (prepare s)) ;;
    start <- aget (points s) (points_count s - 1) ;;
    l <- prepare_segments start l ;;
    Some (s :: l)
  end.
(** spline_path_set, spline-path.c:86-95 *)
Definition path_set (l : list segment) : option path := l <- prepare_segments zero l ;; Some (mkpath l 0 0).

(** ** generate functions. [o]: where out begins *)
(** 132 *)
Definition move_generate (start fin : Z) (out : list Q) (o : nat) : option (list Q) :=
  _ <- need (start <=? fin)%Z ;; fill out o (Z.to_nat (fin - start)) 0%Q.
(** 135-141 *)
Definition constant_generate (start fin : Z) (s : segment) (out : list Q) (o : nat) : option (list Q) :=
  p <- aget (points s) 0 ;; _ <- need (start <=? fin)%Z ;; for_ 0 (Z.to_nat (fin - start)) (fun i out => aset out (o + i) (py p)) out.
(** 142-156 *)
Definition line_generate (start fin : Z) (s : segment) (out : list Q) (o : nat) : option (list Q) :=
  p_start <- aget (points s) 0 ;; p_end <- aget (points s) 1 ;;
  let s_size := (px p_end - px p_start)%Q in
  s_offset <- to_size (inject_Z start - px p_start)%Q ;;
  _ <- need (start <=? fin)%Z ;;
  for_ 0 (Z.to_nat (fin - start)) (fun i out =>
    _ <- need (negb (Qeq_bool s_size 0)) ;;
    let t := (inject_Z (Z.of_nat i + s_offset) / s_size)%Q in
    aset out (o + i) (lerp (py p_start) (py p_end) t)) out.

(** spline_path_bezier1_interpolate_points and spline_path_bezier2_interpolate_points, 11-12 and 214-215. [f]: the field *)
Definition bezier1_interpolate (t mt : Q) (ps : list point) (f : point -> Q) : option Q :=
  a <- aget ps 0 ;; b <- aget ps 1 ;; c <- aget ps 2 ;; Some (f a * mt * mt + f b * 2 * mt * t + f c * t * t)%Q.
Definition bezier2_interpolate (t mt : Q) (ps : list point) (f : point -> Q) : option Q :=
  a <- aget ps 0 ;; b <- aget ps 1 ;; c <- aget ps 2 ;; d <- aget ps 3 ;; Some (f a * mt * mt * mt + f b * 3 * mt * mt * t + f c * 3 * mt * t * t + f d * t * t * t)%Q.

(** spline_path_beziern_generate, 161-213.
    [x]: the variable x, not initialised before the first repetition. The loop makes at most [fuel] repetitions, the result is with true if it ended. *)
Section Bezier.
Variable interpolator : Q -> Q -> list point -> (point -> Q) -> option Q.
Variables (start fin : Z) (ps : list point) (p_start : point) (s_size : Q) (o : nat).
Definition at_index (i : nat) (f : point -> Q) : option Q :=
  _ <- need (negb (Qeq_bool s_size 0)) ;;
  let t := (inject_Z (Z.of_nat i) / s_size)%Q in
  interpolator t (1 - t)%Q ps f.
Definition x_at (i : nat) : option Z := x <- at_index i px ;; to_size (qround x).
(** 193-200 *)
Fixpoint gap_search (j : nat) (x x_previous : Z) : option (nat * Z) :=
  match j with
  | O => Some (0, x_previous)
  | S j' => x_previous <- x_at j ;; if (x_previous <? x)%Z then Some (j, x_previous) else gap_search j' x x_previous
  end.
(** the body of the loop, 179-211 *)
Definition bezier_body (i : nat) (x_previous : Z) (out : list Q) : option (Z * list Q) :=
  x <- x_at i ;;
  y <- at_index i py ;;
  out <- (if (x <? fin)%Z then _ <- need (start <=? x)%Z ;; aset out (o + Z.to_nat (x - start)) y else Some out) ;;
  if (u64 (x - x_previous) <? 2)%Z then Some (x, out)
  else
    '(y_previous, x_previous) <-
      (if (start <? x_previous)%Z then y_previous <- aget out (o + Z.to_nat (x_previous - start)) ;; Some (y_previous, x_previous)
       else
         '(j, x_previous) <- gap_search i x x_previous ;;
         if j =? 0 then x_previous <- to_size (px p_start) ;; Some (py p_start, x_previous) else Some (py p_start, x_previous)) ;;
    _ <- need (x_previous <=? x)%Z ;;
    out <- for_ 1 (Z.to_nat (x - x_previous)) (fun j out =>
      _ <- need (start <=? x_previous + Z.of_nat j)%Z ;;
      aset out (o + Z.to_nat (x_previous + Z.of_nat j - start)) (lerp y_previous y (inject_Z (Z.of_nat j) / inject_Z (x - x_previous))%Q)) out ;;
    Some (x, out).
Fixpoint bezier_loop (fuel i : nat) (x : option Z) (x_previous : Z) (out : list Q) : option (bool * list Q) :=
  more <- (if (Z.of_nat i <? 2 * (fin - start))%Z then Some true else x <- x ;; Some (x <? fin)%Z) ;;
  if more : bool then
    match fuel with
    | O => Some (false, out)
    | S fuel => '(x, out) <- bezier_body i x_previous out ;; bezier_loop fuel (S i) (Some x) x out
    end
  else Some (true, out).
End Bezier.
Definition beziern_generate (interpolator : Q -> Q -> list point -> (point -> Q) -> option Q) (fuel : nat) (start fin : Z) (s : segment) (out : list Q) (o : nat) : option (bool * list Q) :=
  p_start <- aget (points s) 0 ;; p_end <- aget (points s) (points_count s - 1) ;;
  _ <- need (start <=? fin)%Z ;;
  let s_size := (2 * (px p_end - px p_start))%Q in
  i <- to_size (inject_Z start - px p_start)%Q ;;
  bezier_loop interpolator start fin (points s) p_start s_size o fuel (Z.to_nat i) None start out.

(** [fuel]: a limit for repetitions in bezier segments.
    SubPath, 157: is only called with start = end, because points_count is 1 for such segments. The path is then sampled with an empty window, nothing is written. For other windows the model is undefined. *)
Definition run_generate (fuel : nat) (start fin : Z) (s : segment) (out : list Q) (o : nat) : option (bool * list Q) :=
  match generate s with
  | Move => out <- move_generate start fin out o ;; Some (true, out)
  | Constant => out <- constant_generate start fin s out o ;; Some (true, out)
  | Line => out <- line_generate start fin s out o ;; Some (true, out)
  | Bezier1 => beziern_generate bezier1_interpolate fuel start fin s out o
  | Bezier2 => beziern_generate bezier2_interpolate fuel start fin s out o
  | SubPath _ => _ <- need (start =? fin)%Z ;; Some (true, out)
  end.

(** spline_path_get, spline-path.c:19-44. [o]: where out begins in the array of the caller.
    [k]: segments_count - i *)
Fixpoint get_loop (fuel k : nat) (l : list segment) (i current : nat) (start fin : Z) (out : list Q) (o : nat) : option (bool * list Q * nat) :=
  match k with
  | O => Some (true, out, current)
  | S k =>
    s <- aget l i ;;
    p0 <- aget (points s) 0 ;; s_start <- to_size (px p0) ;;
    p1 <- aget (points s) (points_count s - 1) ;; s_end <- to_size (px p1) ;;
    if (fin <? s_start)%Z then Some (true, out, current)
    else if (s_end <? start)%Z then get_loop fuel k l (S i) i start fin out o
    else
      let out_start := if (start <? s_start)%Z then Z.to_nat (s_start - start) else 0 in
      let s_start := if (s_start <? start)%Z then start else s_start in
      let s_end := if (fin <? s_end)%Z then fin else s_end in
      '(ended, out) <- run_generate fuel s_start s_end s out (o + out_start) ;;
      if ended : bool then get_loop fuel k l (S i) i start fin out o else Some (false, out, current)
  end.
Definition path_get (fuel : nat) (p : path) (start fin : Z) (out : list Q) (o : nat) : option (bool * list Q * path) :=
  let i := if (start <? previous_start p)%Z then 0 else current_segment_index p in
  '(ended, out, current) <- get_loop fuel (length (segments p) - i) (segments p) i (current_segment_index p) start fin out o ;;
  Some (ended, out, mkpath (segments p) current (if i <? length (segments p) then start else previous_start p)).

(** ** path.c *)
(** sp_path_samples, path.c:10-31. [c]: NULL or an array. The array out is allocated with zeros, allocation succeeds.
    sp_path_point_count_limit is 24 *)
Definition path_segment (x y c : Q) : segment := if qlt c (1 # 100000) then seg_line x y else seg_arc x y c.
Definition curve_at (c : option (list Q)) (i : nat) : option Q := match c with Some c => aget c i | None => Some 0%Q end.
Definition path_samples (fuel : nat) (size : Z) (point_count : nat) (x y : list Q) (c : option (list Q)) : option (bool * list Q) :=
  let last := point_count - 1 in
  let xn := inject_Z size in
  yn <- aget y last ;;
  cn <- (match c with Some _ => _ <- need (1 <=? last) ;; curve_at c (last - 1) | None => Some 0%Q end) ;;
  y0 <- aget y 0 ;;
  let segs := repeat (mkseg 0 [] Move NoPrepare) 24 in
  segs <- aset segs 0 (seg_move 0 y0) ;;
  segs <- aset segs last (path_segment xn yn cn) ;;
  segs <- for_ 1 last (fun i segs =>
    xn <- aget x (i - 1) ;; yn <- aget y i ;; cn <- curve_at c (i - 1) ;;
    aset segs i (path_segment xn yn cn)) segs ;;
  segs <- slice segs 0 point_count ;;
  p <- path_set segs ;;
  '(ended, out, _) <- path_get fuel p 0 size (repeat 0%Q (Z.to_nat size)) 0 ;;
  Some (ended, out).
End Path.
