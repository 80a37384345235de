(** Paths with their own segments: spline_path_set_copy, /repo/source/c/foreign/sph-sc-lib/sph-sp/spline-path.c:98-105, in a memory with arrays of segments.
    The segments themselves are in PathModel.v, their data in PendModel.v. *)
From Coq Require Import QArith.
From Verif Require Import Base PathModel PendModel.
Close Scope Q_scope.

(** [block]: the arrays of segments that are allocated, by address. [next]: the address of the next allocation. [live]: as in PendModel.v *)
Record memory := mkmem { block : nat -> option array; next : nat; live : list nat }.
Definition write (m : memory) (d : nat) (a : option array) : memory := mkmem (fun q => if q =? d then a else block m q) (next m) (live m).
(** spline_path_t, spline-path.h:52-57, with the address of the segments. The count of segments is the length of the array. *)
Record handle := mkhandle { place : nat; current : nat; previous : Z }.

Section Copy.
Variables (root : Q -> Q) (fuel : nat).
(** spline_path_set, 86-95. The prepare functions do not fail. *)
Definition set_at (m : memory) (d : nat) : option (memory * handle) :=
  a <- block m d ;;
  _ <- need (forallb (fun q => existsb (Nat.eqb q) (live m)) (addresses a)) ;;
  p <- path_set root (map fst a) ;;
  Some (write m d (Some (combine (segments p) (map snd a))), mkhandle d 0 0).
(** spline_path_set_copy, 98-105. [ok]: malloc returns memory. *)
Definition set_copy (ok : bool) (m : memory) (d : nat) : option (Z * memory * option handle) :=
  if ok then
    a <- block m d ;;
    '(m, h) <- set_at (write (mkmem (block m) (S (next m)) (live m)) (next m) (Some a)) (next m) ;;
    Some (0%Z, m, Some h)
  else Some (1%Z, m, None).
(** spline_path_get, 19-44 *)
Definition get_at (m : memory) (h : handle) (x y : Z) (out : list Q) : option (list Q * handle) :=
  a <- block m (place h) ;;
  '(ended, out, p) <- path_get fuel (mkpath (map fst a) (current h) (previous h)) x y out 0 ;;
  _ <- need ended ;;
  Some (out, mkhandle (place h) (current_segment_index p) (previous_start p)).
(** spline_path_free, 120-129: it does not free the segments *)
Definition free_at (m : memory) (h : handle) : option memory :=
  a <- block m (place h) ;; l <- release_all (addresses a) (live m) ;; Some (mkmem (block m) (next m) l).
(** free(path.segments) by the user *)
Definition release_at (m : memory) (h : handle) : option memory := _ <- block m (place h) ;; Some (write m (place h) None).

(** What a user does with an array of segments at address [d] and with paths that are copies of it, in any order. Paths are numbered in the order of the successful copies.
    [Change]: the user sets an element of the array *)
Inductive use := Copy (ok : bool) | Get (k : nat) (x y : Z) (out : list Q) | Change (i : nat) (s : segment) | Free (k : nat) | Release (k : nat).
Inductive result := Status (z : Z) | Samples (l : list Q).
Fixpoint run (m : memory) (d : nat) (hs : list handle) (uses : list use) : option (list result * memory * list handle) :=
  match uses with
  | [] => Some ([], m, hs)
  | Copy ok :: uses =>
    '(z, m, h) <- set_copy ok m d ;;
    '(r, m, hs) <- run m d (match h with Some h => hs ++ [h] | None => hs end) uses ;;
    Some (Status z :: r, m, hs)
  | Get k x y out :: uses =>
    h <- aget hs k ;; '(out, h) <- get_at m h x y out ;; hs <- aset hs k h ;;
    '(r, m, hs) <- run m d hs uses ;; Some (Samples out :: r, m, hs)
  | Change i s :: uses => a <- block m d ;; a <- aset a i (s, None) ;; run (write m d (Some a)) d hs uses
  | Free k :: uses => h <- aget hs k ;; m <- free_at m h ;; run m d hs uses
  | Release k :: uses => h <- aget hs k ;; m <- release_at m h ;; run m d hs uses
  end.
End Copy.
