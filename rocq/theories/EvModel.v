(** Events: /repo/source/c-precompiled/sph-sp/sequencer.c, apart from the event list and sp_seq which are in SeqModel.v. *)
From Verif Require Import Base SeqModel.
Open Scope nat_scope.

(** ** event memory, sequencer.c:138-202 and sequencer.h:148-150 *)

(** An address and the function to call with it (memreg2_t, /repo/source/c/foreign/sph-sc-lib/sph-sp/memreg.h), here numbers. *)
Definition registration : Type := nat * nat.
(** sp_memory_t of an event (array3_declare_type, /repo/source/c/foreign/sph-sc-lib/sph-sp/array3.h:19-49) and the event's free pointer.
    [m_data]: the allocated elements, [None] of the outer option is the null pointer, [None] inside is an element that has not been set.
    The field size is the number of elements. [m_free]: whether event->free is set. *)
Record memory := { m_data : option (list (option registration)); m_used : nat; m_free : bool }.

(** name##_resize, array3.h:40-49. [ok]: whether realloc succeeds. realloc with size zero is undefined (it frees the old memory). Result:
    success and the new memory. *)
Definition memory_resize (ok : bool) (m : memory) (data : list (option registration)) (new_size : nat) : option (bool * memory) :=
  if new_size =? 0 then None
  else if ok then
    Some (true, {| m_data := Some (firstn new_size data ++ repeat None (new_size - length data));
                   m_used := if new_size <? m_used m then new_size else m_used m; m_free := m_free m |})
  else Some (false, m).
(** name##_new, array3.h:27-37, and the following assignment of event->free, sequencer.c:145-150 and 168-173 *)
Definition memory_new (ok : bool) (m : memory) (size : nat) : bool * memory :=
  if ok then (true, {| m_data := Some (repeat None size); m_used := 0; m_free := true |}) else (false, m).
(** array3_add, array3.h:51-53, and sp_event_memory_fixed_add_with_handler, sequencer.c:183-188 *)
Definition memory_fixed_add (m : memory) (r : registration) : option memory :=
  data <- m_data m ;;
  data <- aset data (m_used m) (Some r) ;;
  Some {| m_data := Some data; m_used := S (m_used m); m_free := m_free m |}.
(** sp_event_memory_add_with_handler, sequencer.c:138-159. sp_event_memory_growth_factor is 2 and sp_event_memory_initial_size 4 *)
Definition memory_add (ok : bool) (m : memory) (r : registration) : option (bool * memory) :=
  '(success, m) <- match m_data m with
    | Some data =>
      _ <- need (m_used m <=? length data) ;;
      if length data - m_used m =? 0 then memory_resize ok m data (2 * length data) else Some (true, m)
    | None => Some (memory_new ok m 4)
    end ;;
  if (success : bool) then m <- memory_fixed_add m r ;; Some (true, m) else Some (false, m).
(** sp_event_memory_ensure, sequencer.c:162-179 *)
Definition memory_ensure (ok : bool) (m : memory) (additional : nat) : option (bool * memory) :=
  match m_data m with
  | Some data =>
    _ <- need (m_used m <=? length data) ;;
    let unused := length data - m_used m in
    if unused <? additional then memory_resize ok m data (length data + (additional - unused)) else Some (true, m)
  | None => Some (memory_new ok m additional)
  end.
(** sp_event_memory_free, sequencer.c:191-202. Result: the calls of handlers, in order. Reading an element that has not been set is [None]. *)
Definition memory_free (m : memory) : option (list registration * memory) :=
  match m_data m with
  | None => Some ([], m)
  | Some data =>
    calls <- for_ 0 (m_used m) (fun i calls => slot <- aget data i ;; r <- slot ;; Some (calls ++ [r])) [] ;;
    Some (calls, {| m_data := None; m_used := m_used m; m_free := m_free m |})
  end.

(** ** sp_event_block_generate, sequencer.c:205-227 *)
Section Block.
Variable T : Type.
(** generate(size, i, i + start, out, event). [T]: everything it can change. [false]: failure status *)
Variable generate : nat -> nat -> nat -> T -> option (T * bool).
(** the loop of lines 217-219 from [i]; [count]: remaining passes *)
Fixpoint block_loop (count resolution start i : nat) (s : T) : option (T * bool * nat) :=
  match count with
  | O => Some (s, true, i)
  | S count =>
    '(s, ok) <- generate resolution i (i + start) s ;;
    if (ok : bool) then block_loop count resolution start (i + resolution) s else Some (s, false, i)
  end.
(** The loop ends when i reaches block_initial = block_count * resolution, after block_count passes. Division by zero is [None]. *)
Definition block_generate (resolution start end_ : nat) (s : T) : option (T * bool) :=
  _ <- need (start <=? end_) ;;
  let duration := end_ - start in
  let resolution := if duration <? resolution then duration else resolution in
  _ <- need (negb (resolution =? 0)) ;;
  let block_count := duration / resolution in
  let block_rest := duration mod resolution in
  '(s, ok, i) <- block_loop block_count resolution start 0 s ;;
  if (ok : bool) then if negb (block_rest =? 0) then generate block_rest i (i + start) s else Some (s, true) else Some (s, false).
End Block.

(** ** wave events, sequencer.c:467-553 *)
Section Wave.
(** samples with their addition and multiplication, of which nothing is assumed *)
Variable V : Type.
Variables add mul : V -> V -> V.

(** sp_wave_event_channel_config_t, sequencer.h:175-184. Arrays are [None] if the pointer is null *)
Record wave_channel := {
  amod : option (list V); amp : V; channel : nat; fmod : option (list Z); frq : Z; phs : Z; pmod : option (list Z); use : bool
}.
(** sp_wave_event_config_t, sequencer.h:185-191. channel_config is an array of sp_channel_count_limit elements *)
Record wave_config := { wvf : list V; wvf_size : Z; channel_count : nat; channel_config : list wave_channel }.
Definition set_phs (c : wave_channel) (p : Z) : wave_channel :=
  {| amod := amod c; amp := amp c; channel := channel c; fmod := fmod c; frq := frq c; phs := p; pmod := pmod c; use := use c |}.
Definition set_channels (c : wave_config) (l : list wave_channel) : wave_config :=
  {| wvf := wvf c; wvf_size := wvf_size c; channel_count := channel_count c; channel_config := l |}.

(** sp_inline_default for pointers and numbers, main.h:41 *)
Definition default_pointer {A : Type} (x y : option A) : option A := match x with Some _ => x | None => y end.
(** sp_wave_event_prepare, sequencer.c:504-524 *)
Definition prepare_channel (first cc : wave_channel) : wave_channel :=
  if use cc then
    {| amod := default_pointer (amod cc) (amod first); amp := amp cc; channel := channel cc; fmod := default_pointer (fmod cc) (fmod first);
       frq := if (frq cc =? 0)%Z then frq first else frq cc; phs := phs cc; pmod := default_pointer (pmod cc) (pmod first); use := use cc |}
  else
    {| amod := amod first; amp := amp first; channel := channel cc; fmod := fmod first; frq := frq first; phs := phs first;
       pmod := pmod first; use := use first |}.
Definition wave_prepare (c : wave_config) : option wave_config :=
  l <- for_ 1 (channel_count c) (fun i l => cc <- aget l i ;; first <- aget l 0 ;; aset l i (prepare_channel first cc)) (channel_config c) ;;
  Some (set_channels c l).

(** A frame of the output: the sample of each channel. The output block has [channels] channels. *)
Definition frame : Type := nat -> V.
Definition frame_add (f : frame) (ch : nat) (x : V) : frame := fun c => if c =? ch then add (f c) x else f c.
Definition wrap (p size : Z) : option Z := if (size <=? p)%Z then if (size =? 0)%Z then None else Some (p mod size)%Z else Some p.
Definition optional {A : Type} (a : option (list A)) (i : nat) : option (option A) :=
  match a with Some l => x <- aget l i ;; Some (Some x) | None => Some None end.
(** sequencer.c:536-549: one pass of the inner loop. State: output, phase *)
Definition wave_sample (channels start : nat) (c : wave_config) (cc : wave_channel) (i : nat) (s : list frame * Z) : option (list frame * Z) :=
  let '(out, p) := s in
  pm <- optional (pmod cc) i ;;
  phsn <- match pm with Some m => wrap (u32 (p + m)) (wvf_size c) | None => Some p end ;;
  _ <- need (channel cc <? channels) ;;
  f <- aget out (i - start) ;;
  am <- amod cc ;;
  a <- aget am i ;;
  w <- aget (wvf c) (Z.to_nat phsn) ;;
  out <- aset out (i - start) (frame_add f (channel cc) (mul (mul (amp cc) a) w)) ;;
  fm <- optional (fmod cc) i ;;
  p <- wrap (u32 (p + match fm with Some m => u32 (frq cc + m) | None => frq cc end)) (wvf_size c) ;;
  Some (out, p).
(** sp_wave_event_generate, sequencer.c:525-553 *)
Definition wave_generate (channels start end_ : nat) (out : list frame) (c : wave_config) : option (list frame * wave_config) :=
  '(out, l) <- for_ 0 (channel_count c) (fun cci '(out, l) =>
    cc <- aget l cci ;;
    '(out, p) <- for_ start end_ (wave_sample channels start c cc) (out, phs cc) ;;
    l <- aset l cci (set_phs cc p) ;;
    Some (out, l)) (out, channel_config c) ;;
  Some (out, set_channels c l).
(** the same as a callback of an event whose configuration it is *)
Definition wave_event_generate (channels start end_ : nat) (out : list frame) (e : event wave_config) : option (list frame * event wave_config * bool) :=
  '(out, c) <- wave_generate channels start end_ out (ev_data _ e) ;;
  Some (out, {| ev_id := ev_id _ e; ev_start := ev_start _ e; ev_end := ev_end _ e; ev_prepare := ev_prepare _ e; ev_free := ev_free _ e; ev_data := c |}, true).
(** sp_wave_event_prepare as a callback *)
Definition wave_event_prepare (e : event wave_config) : option (event wave_config) :=
  c <- wave_prepare (ev_data _ e) ;;
  Some {| ev_id := ev_id _ e; ev_start := ev_start _ e; ev_end := ev_end _ e; ev_prepare := ev_prepare _ e; ev_free := ev_free _ e; ev_data := c |}.
End Wave.

(** ** map events, sequencer.c:418-466 *)
Section Map.
Variables (F D M : Type).
Variable zero : F.
(** callbacks of the wrapped event *)
Variable prepare : event D -> option (event D).
Variable generate : nat -> nat -> list F -> event D -> option (list F * event D * bool).
(** map_generate(start, end, in, out, config), [M]: what config points to. For the map that is not isolated [in] and [out] are the same array. *)
Variable map_inplace : nat -> nat -> list F -> M -> option (list F * M * bool).
Variable map_apart : nat -> nat -> list F -> list F -> M -> option (list F * M * bool).

(** sp_map_event_config_t, sequencer.h:169-174 *)
Record map_config := { mc_event : event D; mc_state : M }.
Definition with_data {A B : Type} (e : event A) (d : B) (free : bool) : event B :=
  {| ev_id := ev_id _ e; ev_start := ev_start _ e; ev_end := ev_end _ e; ev_prepare := ev_prepare _ e; ev_free := free; ev_data := d |}.
(** sp_map_event_prepare, sequencer.c:428-436 *)
Definition map_prepare (e : event map_config) : option (event map_config) :=
  let c := ev_data _ e in
  inner <- (if ev_prepare _ (mc_event c) then option_map (prepared D) (prepare (mc_event c)) else Some (mc_event c)) ;;
  Some (with_data e {| mc_event := inner; mc_state := mc_state c |} true).
(** sp_map_event_free, sequencer.c:437-443. Result: whether the free function of the wrapped event is called, before the own memory is freed *)
Definition map_free (e : event map_config) : list (action D) :=
  let inner := mc_event (ev_data _ e) in if ev_free _ inner then [AFree D inner] else [].
(** sp_map_event_generate, sequencer.c:444-452. On failure of the wrapped event the map function is not called. *)
Definition map_generate (start end_ : nat) (out : list F) (e : event map_config) : option (list F * event map_config * bool) :=
  let c := ev_data _ e in
  '(out, inner, ok) <- generate start end_ out (mc_event c) ;;
  if (ok : bool) then
    '(out, state, ok) <- map_inplace start end_ out (mc_state c) ;;
    Some (out, with_data e {| mc_event := inner; mc_state := state |} (ev_free _ e), ok)
  else Some (out, with_data e {| mc_event := inner; mc_state := mc_state c |} (ev_free _ e), false).
(** sp_map_event_isolated_generate, sequencer.c:455-466. [ok]: allocation of the temporary block. out.size, its size, is the one of the
    caller's block and [extra] larger than what follows the event's start in that block. *)
Definition map_isolated_generate (ok : bool) (extra : nat) (start end_ : nat) (out : list F) (e : event map_config) : option (list F * event map_config * bool) :=
  let c := ev_data _ e in
  if ok then
    '(temp, inner, ok) <- generate start end_ (repeat zero (length out + extra)) (mc_event c) ;;
    if (ok : bool) then
      '(out, state, ok) <- map_apart start end_ temp out (mc_state c) ;;
      Some (out, with_data e {| mc_event := inner; mc_state := state |} (ev_free _ e), ok)
    else Some (out, with_data e {| mc_event := inner; mc_state := mc_state c |} (ev_free _ e), false)
  else Some (out, e, false).
End Map.
