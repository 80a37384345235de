(** sp_moving_average for any type of samples; the exact version uses rational numbers, rounding is left out there. *)
From Coq Require Import QArith.
From Verif Require Import Base.
Open Scope nat_scope.

Section Average.
Variable D : Type.
Variable add sub : D -> D -> D.
(** x * -1 *)
Variable neg : D -> D.
(** the quotient with an unsigned number *)
Variable over : D -> Z -> D.
(** sp_moving_average, /repo/source/c-precompiled/sph-sp/filter.c:314-345. [prev], [next]: [None] is the null pointer. in_size is the length of
    [input]. Subtractions of indexes are those of natural numbers: an index that would be negative is 0 here, which does not happen for sizes
    that are allowed (2 * radius < in_size). Result: out *)
Definition moving_average_of (input : list D) (prev next : option (list D)) (radius : nat) (out : list D) : option (list D) :=
  let in_size := length input in
  let width := u32 (u32 (Z.of_nat radius * 2) + 1) in
  sum <- aget input 0 ;;
  sum <- match prev with
    | Some prev => for_ 0 radius (fun i sum => x <- aget prev (in_size - i - 1) ;; y <- aget input (i + 1) ;; Some (add sum (add x y))) sum
    | None => aget input 0
    end ;;
  out <- aset out 0 (over sum width) ;;
  '(out, sum) <- for_ 1 (radius + 1) (fun i '(out, sum) =>
    x <- aget input (i + radius) ;;
    y <- match prev with Some prev => aget prev (in_size - radius - 1 + i) | None => y <- aget input (radius - i + 1) ;; Some (neg y) end ;;
    let sum := sub (add sum x) y in
    out <- aset out i (over sum width) ;; Some (out, sum)) (out, sum) ;;
  '(out, sum) <- for_ (radius + 1) (in_size - radius) (fun i '(out, sum) =>
    x <- aget input (i + radius) ;;
    y <- aget input (i - radius - 1) ;;
    let sum := sub (add sum x) y in
    out <- aset out i (over sum width) ;; Some (out, sum)) (out, sum) ;;
  '(out, sum) <- for_ (in_size - radius) in_size (fun i '(out, sum) =>
    x <- match next with Some next => aget next (i - (in_size - radius)) | None => x <- aget input (i + radius + 1 - in_size) ;; Some (neg x) end ;;
    y <- aget input (i - radius - 1) ;;
    let sum := sub (add sum x) y in
    out <- aset out i (over sum width) ;; Some (out, sum)) (out, sum) ;;
  Some out.
End Average.
(** with rational numbers *)
Definition moving_average : list Q -> option (list Q) -> option (list Q) -> nat -> list Q -> option (list Q) :=
  moving_average_of Q Qplus Qminus (fun x => x * (-1))%Q (fun sum width => sum / inject_Z width)%Q.
