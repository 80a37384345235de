(** Paths that are independent of the array they are made from and of each other *)
From Coq Require Import QArith.
From Verif Require Import Base PathModel PendModel PcopyModel.
Close Scope Q_scope.

(** What the uses must give: every path is a value, made from the segments as they are at the time of the copy. [None] in the list of paths: its segments have been released.
    The result is [None] where a use is not allowed: a path that does not exist or has been released, or an index outside of the array. *)
Fixpoint value_run (root : Q -> Q) (fuel : nat) (l : list segment) (paths : list (option path)) (uses : list use) : option (list result * list segment * list (option path)) :=
  match uses with
  | [] => Some ([], l, paths)
  | Copy true :: uses =>
    p <- path_set root l ;; '(r, l, paths) <- value_run root fuel l (paths ++ [Some p]) uses ;; Some (Status 0 :: r, l, paths)
  | Copy false :: uses => '(r, l, paths) <- value_run root fuel l paths uses ;; Some (Status 1 :: r, l, paths)
  | Get k x y out :: uses =>
    p <- aget paths k ;; p <- p ;; '(ended, out, p) <- path_get fuel p x y out 0 ;; _ <- need ended ;;
    paths <- aset paths k (Some p) ;; '(r, l, paths) <- value_run root fuel l paths uses ;; Some (Samples out :: r, l, paths)
  | Change i s :: uses => l <- aset l i s ;; value_run root fuel l paths uses
  | Free k :: uses => p <- aget paths k ;; _ <- p ;; value_run root fuel l paths uses
  | Release k :: uses => p <- aget paths k ;; _ <- p ;; paths <- aset paths k None ;; value_run root fuel l paths uses
  end.
