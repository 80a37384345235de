(** New arrays, copies of arrays and constant arrays: P/arrays-template.c:93, 133-141, P/arrays.c:269-277, P/sequencer.c:418 (P is
    /repo/source/c-precompiled/sph-sp). Memory, pointers and the status are those of BlockModel.v. [ok]: calloc succeeds. sp_size_t is a 32 bit number and sizeof
    a 64 bit one, so the number of bytes does not wrap; calloc gives as many elements as fit, all zero. *)
From Verif Require Import Base BlockModel.

Section Dup.
Variable V : Type.
Variable zero : V.

(** sp_##type_name##_new, arrays-template.c:93, and sp_map_event_config_new_n, sequencer.c:418, with elements that are configurations. [out]: the pointer that
    is to be set, [None] if it has no value *)
Definition array_new (memory_id : Z) (ok : bool) (count : nat) (out : option pointer) (m : mem V) : status * option pointer * mem V :=
  let '(p, m1) := alloc V m (repeat zero count) in
  let '(st, out) := helper_alloc memory_id (if ok then Some (p, 0) else None) out in
  (st, out, if ok then m1 else m).
(** sp_##type_name##_duplicate, arrays-template.c:133-141. memcpy element by element *)
Definition array_duplicate (memory_id : Z) (ok : bool) (a : pointer) (count : nat) (out : option pointer) (m : mem V) : option (status * option pointer * mem V) :=
  let '(st, temp, m) := array_new memory_id ok count None m in
  if is_failure st then Some (st, out, m)
  else
    temp <- temp ;;
    m <- for_ 0 count (fun i m => x <- load V m a i ;; store V m temp i x) m ;;
    Some (st, Some temp, m).
(** sp_times_constant, arrays.c:269-277, with sp_times_set, arrays-template.c *)
Definition times_constant (memory_id : Z) (ok : bool) (count : nat) (value : V) (out : option pointer) (m : mem V) : option (status * option pointer * mem V) :=
  let '(st, temp, m) := array_new memory_id ok count None m in
  if is_failure st then Some (st, out, m)
  else
    temp <- temp ;;
    m <- for_ 0 count (fun i m => store V m temp i value) m ;;
    Some (st, Some temp, m).
End Dup.
