(** Lines in paths and random numbers in double precision *)
From Coq Require Import ZArith List Lia.
From Flocq Require Import Core BinarySingleNaN.
From Verif Require Import Base DblModel RandModel.
Import ListNotations.

(** linearly_interpolate, F/spline-path.c:10 *)
Definition lerp64 (a b t : f64) : f64 := fadd a (fmul t (fsub b a)).
(** the conversion of a double to size_t, 64 bits *)
Definition size_of_f64 (a : f64) : option Z :=
  if is_finite a then let z := Btrunc a in if ((0 <=? z) && (z <? 2 ^ 64))%Z%bool then Some z else None else None.
(** spline_path_point_t, F/spline-path.h *)
Record point64 := { dx : f64; dy : f64 }.
(** spline_path_line_generate, F/spline-path.c:142-156. [o]: where out begins in the array of the caller *)
Definition line_generate64 (start fin : Z) (p_start p_end : point64) (out : list f64) (o : nat) : option (list f64) :=
  let s_size := fsub (dx p_end) (dx p_start) in
  s_offset <- size_of_f64 (fsub (f_of_Z start) (dx p_start)) ;;
  _ <- need (start <=? fin)%Z ;;
  for_ 0 (Z.to_nat (fin - start)) (fun i out =>
    let t := fdiv (f_of_Z (Z.of_nat i + s_offset)) s_size in
    aset out (o + i) (lerp64 (dy p_start) (dy p_end) t)) out.

(** ** random.c in double precision *)
(** sph_random_f64_from_u64, F/random.c:7 *)
Definition from_u64_64 (a : Z) : f64 := fmul (f_of_Z (Z.shiftr a 11)) (fmake 1 (-53)).
(** sph_random_f64, F/random.c:90 *)
Definition random_f64_64 (s : rstate) : f64 * rstate := let '(a, s) := random_u64 s in (from_u64_64 a, s).
(** sph_random_f64_bounded, F/random.c:75-89 *)
Definition random_bounded_64 (range : f64) (s : rstate) : f64 * rstate := let '(a, s) := random_u64_plus s in (fmul range (from_u64_64 a), s).
(** sph_random_f64_1to1, F/random.c:125 *)
Definition random_1to1_64 (s : rstate) : f64 * rstate := let '(x, s) := random_bounded_64 (f_of_Z 2) s in (fsub x (f_of_Z 1), s).
(** sph_random_f64_0to1, F/random.c:133 *)
Definition random_0to1_64 (s : rstate) : f64 * rstate := random_bounded_64 (f_of_Z 1) s.
