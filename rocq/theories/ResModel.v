(** Memory that belongs to events, /repo/source/c-precompiled/sph-sp/sequencer.c and sequencer.h: registration, preparing and freeing.

    - A region of memory is a number. Reading or freeing a region that is not allocated is [None].
    - Allocations succeed; failing registrations are in EvModel.v.
    - Only what matters for memory is kept: an event is its function pointers prepare and free, its register of memory and what is below it.
      The times of events, the positions in event lists and the samples are left out.
    - Handlers of registered addresses are free(). *)
From Verif Require Import Base.

Record store := mkstore { live : nat -> bool; next : nat }.
Definition malloc (s : store) : nat * store := (next s, mkstore (fun q => (q =? next s) || live s q) (S (next s))).
Definition release (p : nat) (s : store) : option store := _ <- need (live s p) ;; Some (mkstore (fun q => negb (q =? p) && live s q) (next s)).
Fixpoint release_all (l : list nat) (s : store) : option store := match l with [] => Some s | p :: l => s <- release p s ;; release_all l s end.

(** sp_memory_t of an event, array3.h:20-25: [array] is the region of the field data, [None] for null; [entries] are the registered addresses *)
Record memory := mkmemory { array : option nat; capacity : nat; entries : list nat }.
(** the functions of the library that an event's free pointer is set to *)
Inductive free_fn := FreeMemory | FreeGroup | FreeMap | FreeNoise.
(** the fields prepare (set or null), free and memory of sp_event_t, sequencer.h:151-159 *)
Record header := mkheader { to_prepare : bool; free_pointer : option free_fn; memory_of : memory }.
(** An event and what its config points to.
    - [Plain]: wave events, and events with a prepare function of the user that registers [k] regions with sp_event_malloc_srq and then succeeds or fails
    - [Group]: the event list. The numbers are the regions of the list elements
    - [MapOf]: the wrapped event
    - [Noise]: the number of channels with a filter, the buffers and the filter states (one region stands for each state) *)
Inductive event :=
| Plain (h : header) (k : nat) (succeeds : bool)
| Group (h : header) (l : list (nat * event))
| MapOf (h : header) (inner : event)
| Noise (h : header) (filters : nat) (temps states : list nat).
Definition header_of (e : event) : header := match e with Plain h _ _ | Group h _ | MapOf h _ | Noise h _ _ _ => h end.
Definition set_header (e : event) (h : header) : event :=
  match e with Plain _ k b => Plain h k b | Group _ l => Group h l | MapOf _ i => MapOf h i | Noise _ n t f => Noise h n t f end.
Definition set_free (f : option free_fn) (h : header) : header := mkheader (to_prepare h) f (memory_of h).
Definition set_memory (m : memory) (h : header) : header := mkheader (to_prepare h) (free_pointer h) m.
(** a.prepare = 0 in sp_event_prepare_srq, sequencer.h:16-18 *)
Definition prepare_done (e : event) : event := set_header e (mkheader false (free_pointer (header_of e)) (memory_of (header_of e))).

(** sp_event_memory_add_with_handler, sequencer.c:138-159, as in EvModel.memory_add. A realloc gives a new region and frees the old one *)
Definition register (a : nat) (h : header) (s : store) : option (header * store) :=
  let m := memory_of h in
  match array m with
  | None =>
    let '(d, s) := malloc s in
    Some (mkheader (to_prepare h) (match free_pointer h with None => Some FreeMemory | f => f end) (mkmemory (Some d) 4 [a]), s)
  | Some d =>
    _ <- need (live s d) ;;
    if length (entries m) <? capacity m then Some (set_memory (mkmemory (Some d) (capacity m) (entries m ++ [a])) h, s)
    else
      s <- release d s ;;
      let '(d, s) := malloc s in
      Some (set_memory (mkmemory (Some d) (2 * capacity m) (entries m ++ [a])) h, s)
  end.
(** sp_event_malloc_srq, sequencer.h:139-141, [n] times *)
Fixpoint register_new (n : nat) (h : header) (s : store) : option (header * store) :=
  match n with O => Some (h, s) | S n => let '(a, s) := malloc s in '(h, s) <- register a h s ;; register_new n h s end.
(** sp_event_memory_free, sequencer.c:191-202 *)
Definition memory_free (h : header) (s : store) : option (header * store) :=
  match array (memory_of h) with
  | None => Some (h, s)
  | Some d =>
    _ <- need (live s d) ;;
    s <- release_all (entries (memory_of h)) s ;;
    s <- release d s ;;
    Some (set_memory (mkmemory None (capacity (memory_of h)) (entries (memory_of h))) h, s)
  end.

(** sp_event_free, sequencer.h:12-15, with sp_event_memory_free; sp_group_free, sequencer.c:377-381, with sp_event_list_free, 124-135;
    sp_map_event_free, 437-443; sp_noise_event_free, 587-603. Result: the event afterwards. A function with a config of another type is undefined *)
Fixpoint free_event (e : event) (s : store) : option (event * store) :=
  match free_pointer (header_of e), e with
  | None, _ => Some (e, s)
  | Some FreeMemory, _ => '(h, s) <- memory_free (header_of e) s ;; Some (set_header e h, s)
  | Some FreeGroup, Group h l =>
    s <- (fix list_free (l : list (nat * event)) (s : store) : option store :=
      match l with
      | [] => Some s
      | (n, c) :: l => _ <- need (live s n) ;; '(_, s) <- free_event c s ;; s <- release n s ;; list_free l s
      end) l s ;;
    '(h, s) <- memory_free (set_free None h) s ;;
    Some (Group h [], s)
  | Some FreeMap, MapOf h inner =>
    '(inner, s) <- free_event inner s ;;
    '(h, s) <- memory_free (set_free None h) s ;;
    Some (MapOf h inner, s)
  | Some FreeNoise, Noise h n temps states =>
    s <- release_all states s ;;
    s <- release_all temps s ;;
    '(h, s) <- memory_free (set_free None h) s ;;
    Some (Noise h n temps states, s)
  | Some _, _ => None
  end.
(** sp_event_list_free, sequencer.c:124-135 *)
Fixpoint list_free (l : list (nat * event)) (s : store) : option store :=
  match l with
  | [] => Some s
  | (n, c) :: l => _ <- need (live s n) ;; '(_, s) <- free_event c s ;; s <- release n s ;; list_free l s
  end.

Fixpoint malloc_n (n : nat) (s : store) : list nat * store :=
  match n with O => ([], s) | S n => let '(a, s) := malloc s in let '(l, s) := malloc_n n s in (a :: l, s) end.
(** The prepare functions. Result: success, event, store
    - of the user, see [Plain]
    - sp_group_prepare, sequencer.c:384-391, reverses the list
    - sp_map_event_prepare, 428-436. The wrapped event is prepared in its place
    - sp_noise_event_prepare, 608-702: allocates two buffers, and one more if there is a channel with a filter of its own. The free pointer is not set *)
Fixpoint prepare (e : event) (s : store) : option (bool * event * store) :=
  match e with
  | Plain h k b => '(h, s) <- register_new k h s ;; Some (b, Plain h k b, s)
  | Group h l => Some (true, Group (set_free (Some FreeGroup) h) (rev l), s)
  | MapOf h inner =>
    '(ok, inner, s) <- (if to_prepare (header_of inner) then '(ok, inner, s) <- prepare inner s ;; Some (ok, if ok : bool then prepare_done inner else inner, s) else Some (true, inner, s)) ;;
    Some (ok, MapOf (if ok : bool then set_free (Some FreeMap) h else h) inner, s)
  | Noise h n _ _ =>
    let '(temps, s) := malloc_n (if n =? 1 then 2 else 3) s in
    let '(states, s) := malloc_n n s in
    Some (true, Noise h n temps states, s)
  end.
(** What sp_seq keeps of an event whose prepare function failed: the event in the list is as before, apart from what is behind config *)
Definition keep (e e' : event) : event := match e, e' with MapOf h _, MapOf _ inner => MapOf h inner | _, _ => e end.
(** sp_seq on a list whose events all begin in the time range of the call, sequencer.c:247-276. [f]: prepare and generate for one event. [before]: elements that are done.
    Reading an element needs its region *)
Fixpoint play_list (f : event -> store -> option (bool * event * store)) (before l : list (nat * event)) (s : store) : option (bool * list (nat * event) * store) :=
  match l with
  | [] => Some (true, before, s)
  | (n, e) :: l =>
    _ <- need (live s n) ;;
    '(ok, e, s) <- f e s ;;
    if ok : bool then play_list f (before ++ [(n, e)]) l s
    else s <- list_free (before ++ (n, e) :: l) s ;; Some (false, [], s)
  end.
(** The event is copied and the copy prepared; after success the copy replaces the event and generate is called (sequencer.c:266-268): for groups sp_seq, for maps that of the
    wrapped event. Other generate functions do not allocate (the filter states of noise events can be exchanged, one region still stands for each) and do not fail here.
    [depth]: a bound for the nesting *)
Fixpoint play (depth : nat) (e : event) (s : store) : option (bool * event * store) :=
  '(ok, e', s) <- (if to_prepare (header_of e) then '(ok, e', s) <- prepare e s ;; Some (ok, if ok : bool then prepare_done e' else keep e e', s) else Some (true, e, s)) ;;
  if negb ok then Some (false, e', s)
  else
    match e', depth with
    | Group h l, S depth => '(ok, l, s) <- play_list (play depth) [] l s ;; Some (ok, Group h l, s)
    | MapOf h inner, S depth => '(ok, inner, s) <- play depth inner s ;; Some (ok, MapOf h inner, s)
    | Group _ _, O | MapOf _ _, O => None
    | _, _ => Some (true, e', s)
    end.

(** Programs that make an event: a new event with prepare set, [n] regions registered with sp_event_malloc_srq (its configuration and arrays), and for groups the
    sp_group_add of other events (sequencer.c:394-405 with sp_event_list_add, 81-120; an element is allocated. The place in the list is left out) *)
Inductive recipe :=
| MakePlain (n k : nat) (succeeds : bool)
| MakeGroup (n : nat) (l : list recipe)
| MakeMap (n : nat) (r : recipe)
| MakeNoise (n filters : nat).
Definition new_event : header := mkheader true None (mkmemory None 0 []).
Fixpoint build (r : recipe) (s : store) : option (event * store) :=
  match r with
  | MakePlain n k b => '(h, s) <- register_new n new_event s ;; Some (Plain h k b, s)
  | MakeGroup n l =>
    '(h, s) <- register_new n new_event s ;;
    '(l, s) <- (fix add (l : list recipe) (s : store) : option (list (nat * event) * store) :=
      match l with
      | [] => Some ([], s)
      | r :: l => '(e, s) <- build r s ;; let '(a, s) := malloc s in '(rest, s) <- add l s ;; Some ((a, e) :: rest, s)
      end) l s ;;
    Some (Group h l, s)
  | MakeMap n r => '(h, s) <- register_new n new_event s ;; '(e, s) <- build r s ;; Some (MapOf h e, s)
  | MakeNoise n filters => '(h, s) <- register_new n new_event s ;; Some (Noise h filters [] [], s)
  end.
Fixpoint build_list (l : list recipe) (s : store) : option (list (nat * event) * store) :=
  match l with
  | [] => Some ([], s)
  | r :: l => '(e, s) <- build r s ;; let '(a, s) := malloc s in '(rest, s) <- build_list l s ;; Some ((a, e) :: rest, s)
  end.
