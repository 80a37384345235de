(** Growable arrays: specification. A list of elements and a capacity. *)
From Verif Require Import Base A3Model.
Open Scope Z_scope.

(** what the uses of an array must give, or [None] where a use is not allowed: an addition to a full array, a removal from an empty array, an
    element that has not been added, or a size that is zero or whose bytes do not fit into 64 bits *)
Fixpoint stack_run {V : Type} (width : Z) (capacity : Z) (l : list V) (uses : list (a3_use V)) : option (list (a3_result V) * (Z * list V)) :=
  match uses with
  | [] => Some ([], (capacity, l))
  | Add v :: uses => if Z.of_nat (length l) <? capacity then stack_run width capacity (l ++ [v]) uses else None
  | Remove :: uses => if Z.of_nat (length l) =? 0 then None else stack_run width capacity (removelast l) uses
  | Clear :: uses => stack_run width capacity [] uses
  | Resize ok n :: uses =>
    if (0 <? n) && (n * width <? 2 ^ 64) then
      if ok then '(r, s) <- stack_run width n (firstn (Z.to_nat n) l) uses ;; Some (Status 0 :: r, s)
      else '(r, s) <- stack_run width capacity l uses ;; Some (Status 1 :: r, s)
    else None
  | Get i :: uses =>
    if (0 <=? i) then v <- nth_error l (Z.to_nat i) ;; '(r, s) <- stack_run width capacity l uses ;; Some (Element v :: r, s) else None
  end.
