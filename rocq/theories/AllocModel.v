(** Memory that is allocated for events and can fail: the macros sp_event_malloc_srq, sp_event_alloc_srq (with samples, times and units), sp_event_path_*_srq and
    sp_event_envelope_*_srq of /repo/source/c-precompiled/sph-sp/sequencer.h:51-146. All have the same form: one call that allocates an array, one that registers it.
    Either status that is not success goes to the exit label. The model of memory is that of ResModel.v, but allocations can fail here.
    Simplified: the handler is free(), and a path function that fails leaves no memory. *)
From Verif Require Import Base ResModel.

(** sp_event_memory_add_with_handler, sequencer.c:138-159, called with sp_event_memory_add, sequencer.h:22. [ok]: whether an allocation succeeds if one is needed,
    for the register of four elements or for twice the size when it is full. A failed realloc leaves the old array. Result: success, event, memory *)
Definition register_or_fail (ok : bool) (a : nat) (h : header) (s : store) : option (bool * header * store) :=
  let m := memory_of h in
  let grows := match array m with None => true | Some _ => negb (length (entries m) <? capacity m) end in
  _ <- need (match array m with None => true | Some d => live s d end) ;;
  if grows && negb ok then Some (false, h, s) else '(h, s) <- register a h s ;; Some (true, h, s).
(** one macro call. [allocated]: whether the first call succeeds *)
Definition event_array (allocated ok : bool) (h : header) (s : store) : option (bool * header * store) :=
  if allocated then let '(a, s) := malloc s in register_or_fail ok a h s else Some (false, h, s).
(** a function with several macro calls, up to the first failure *)
Fixpoint event_arrays (l : list (bool * bool)) (h : header) (s : store) : option (bool * header * store) :=
  match l with
  | [] => Some (true, h, s)
  | (allocated, ok) :: l => '(success, h, s) <- event_array allocated ok h s ;; if success : bool then event_arrays l h s else Some (false, h, s)
  end.
(** and then sp_event_free, sequencer.h:12-15 *)
Definition arrays_and_free (l : list (bool * bool)) (s : store) : option (bool * store) :=
  '(success, h, s) <- event_arrays l new_event s ;;
  '(_, s) <- free_event (Plain h 0 true) s ;;
  Some (success, s).
