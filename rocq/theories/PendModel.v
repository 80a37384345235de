(** Start, end, size and lifetime of paths, /repo/source/c/foreign/sph-sc-lib/sph-sp/spline-path.c:45-57, 86-129 and 246-259. The rest of paths is in PathModel.v. *)
From Coq Require Import QArith Qround.
From Verif Require Import Base PathModel.
Close Scope Q_scope.

(** spline_path_start, 45 *)
Definition path_start (p : path) : option point := s <- aget (segments p) 0 ;; aget (points s) 0.
(** spline_path_end, 46-52. Without segments the index is before the array *)
Definition path_end (p : path) : option point :=
  _ <- need (negb (length (segments p) =? 0)) ;;
  s <- aget (segments p) (length (segments p) - 1) ;;
  q <- aget (points s) (points_count s - 1) ;;
  if Qeq_bool size_max (px q) then aget (points s) 0 else Some q.
(** spline_path_size, 53-57 *)
Definition path_size (p : path) : option Z := q <- path_end p ;; to_size (px q).

(** The array of segments of a caller: what PathModel has of each segment, and the field data, which is the address of a copy of a path for spline_path_path (246-259) and
    otherwise null. [live]: the addresses that are allocated. *)
Definition array : Type := list (segment * option nat).
Definition addresses (a : array) : list nat := concat (map (fun s => match snd s with Some d => [d] | None => [] end) a).
(** free of one address: undefined if it is not allocated *)
Definition release (d : nat) (live : list nat) : option (list nat) := if existsb (Nat.eqb d) live then Some (remove Nat.eq_dec d live) else None.
(** spline_path_free, 120-129 *)
Fixpoint release_all (l : list nat) (live : list nat) : option (list nat) := match l with [] => Some live | d :: l => live <- release d live ;; release_all l live end.
(** spline_path_segments_get, 108-116, with spline_path_set, 86-95, which changes the array of the caller. Preparing a path segment reads its data (59).
    Prepare functions do not fail. *)
Definition segments_get (root : Q -> Q) (fuel : nat) (a : array) (live : list nat) (start fin : Z) (out : list Q) : option (list Q * array * list nat) :=
  _ <- need (forallb (fun d => existsb (Nat.eqb d) live) (addresses a)) ;;
  p <- path_set root (map fst a) ;;
  '(ended, out, _) <- path_get fuel p start fin out 0 ;;
  _ <- need ended ;;
  live <- release_all (addresses a) live ;;
  Some (out, combine (segments p) (map snd a), live).
