(** Growable arrays: F/array3.h, F = /repo/source/c/foreign/sph-sc-lib/sph-sp. sp_memory_t of P/sequencer.h:148 is one. *)
From Verif Require Import Base.
Open Scope Z_scope.

Section Array3.
(** the element type and its sizeof *)
Context {V : Type}.
Variable width : Z.

(** The struct, array3.h:20-24. [cells] is the memory at data, as whole elements: [None] if it has been freed; elements that have not been set
    are [None]. size and used are size_t. *)
Record array3 := mkarray3 { cells : option (list (option V)); size : Z; used : Z }.

(** the number of whole elements in the memory returned by malloc((size * sizeof(element_type))): the product is a size_t *)
Definition elements (n : Z) : nat := Z.to_nat (u64 (n * width) / width).

(** name_new, array3.h:26-36. [ok]: malloc returns memory. *)
Definition a3_new (ok : bool) (n : Z) : Z * option array3 :=
  if ok then (0, Some (mkarray3 (Some (repeat None (elements n))) n 0)) else (1, None).

(** name_resize, array3.h:39-48. [ok]: realloc returns memory. Freed memory must not be passed. realloc to zero bytes that returns 0 has freed
    the memory, as in the GNU C library; otherwise a failing realloc leaves it as it is. *)
Definition a3_resize (ok : bool) (a : array3) (n : Z) : option (Z * array3) :=
  c <- cells a ;;
  if ok then
    Some (0, mkarray3 (Some (firstn (elements n) c ++ repeat None (elements n - length c))) n (if n <? used a then n else used a))
  else if u64 (n * width) =? 0 then Some (1, mkarray3 None (size a) (used a))
  else Some (1, a).

(** array3_add, array3.h:50-52 *)
Definition a3_add (a : array3) (v : V) : option array3 :=
  c <- cells a ;; c <- aset c (Z.to_nat (used a)) (Some v) ;; Some (mkarray3 (Some c) (size a) (u64 (used a + 1))).
(** array3_get, array3.h:57. Elements that have not been set are indeterminate. *)
Definition a3_get (a : array3) (i : Z) : option V := c <- cells a ;; v <- aget c (Z.to_nat i) ;; v.
(** array3_clear, array3_remove, array3_size, array3_unused_size, array3_max_size, array3.h:58-62 *)
Definition a3_clear (a : array3) : array3 := mkarray3 (cells a) (size a) 0.
Definition a3_remove (a : array3) : array3 := mkarray3 (cells a) (size a) (u64 (used a - 1)).
Definition a3_size (a : array3) : Z := used a.
Definition a3_unused_size (a : array3) : Z := u64 (size a - used a).
Definition a3_max_size (a : array3) : Z := size a.
(** array3_free, array3.h:63 *)
Definition a3_free (a : array3) : option array3 := _ <- cells a ;; Some (mkarray3 None (size a) (used a)).
(** array3_full, array3_not_full, array3.h:64-65 *)
Definition a3_full (a : array3) : bool := used a =? size a.
Definition a3_not_full (a : array3) : bool := used a <? size a.
(** array3_data_last, array3.h:70 *)
Definition a3_data_last (a : array3) : option V := a3_get a (u64 (size a - 1)).
(** array3_declare_stack, array3.h:71-75: used is not set, [u] is what happens to be there *)
Definition a3_declare_stack (n u : Z) : array3 := mkarray3 (Some (repeat None (Z.to_nat n))) n u.

(** uses of an array one after the other. Result: the statuses of resize and the elements of get *)
Inductive a3_use := Add (v : V) | Remove | Clear | Resize (ok : bool) (n : Z) | Get (i : Z).
Inductive a3_result := Status (s : Z) | Element (v : V).
Fixpoint a3_run (a : array3) (l : list a3_use) : option (list a3_result * array3) :=
  match l with
  | [] => Some ([], a)
  | Add v :: l => a <- a3_add a v ;; a3_run a l
  | Remove :: l => a3_run (a3_remove a) l
  | Clear :: l => a3_run (a3_clear a) l
  | Resize ok n :: l => '(s, a) <- a3_resize ok a n ;; '(r, a) <- a3_run a l ;; Some (Status s :: r, a)
  | Get i :: l => v <- a3_get a i ;; '(r, a) <- a3_run a l ;; Some (Element v :: r, a)
  end.
End Array3.
Arguments array3 : clear implicits. Arguments a3_use : clear implicits. Arguments a3_result : clear implicits.
