(** Specifications for events. *)
From Verif Require Import Base SeqModel SeqSpec SeqLifeSpec SeqRenderSpec EvModel.
Open Scope nat_scope.

(** ** event memory *)
(** [MAdd ok r]: sp_event_memory_add_with_handler, [MEnsure ok n]: sp_event_memory_ensure, [MFixed r]: sp_event_memory_fixed_add_with_handler,
    [MFree]: sp_event_memory_free. [ok]: whether an allocation in this call succeeds if there is one. *)
Inductive memory_op := MAdd (ok : bool) (r : registration) | MEnsure (ok : bool) (n : nat) | MFixed (r : registration) | MFree.
(** running the operations of the program. Result: memory, and everything handlers have been called with in order *)
Fixpoint run_memory (ops : list memory_op) (m : memory) : option (memory * list registration * list bool) :=
  match ops with
  | [] => Some (m, [], [])
  | op :: rest =>
    '(m, calls, status) <- match op with
      | MAdd ok r => '(success, m) <- memory_add ok m r ;; Some (m, [], [success])
      | MEnsure ok n => '(success, m) <- memory_ensure ok m n ;; Some (m, [], [success])
      | MFixed r => m <- memory_fixed_add m r ;; Some (m, [], [])
      | MFree => '(calls, m) <- memory_free m ;; Some (m, calls, [])
      end ;;
    '(m, calls', status') <- run_memory rest m ;;
    Some (m, calls ++ calls', status ++ status')
  end.
(** What is to happen, given the success of each operation that reports one. [registered]: since the last free; [promised]: how many
    more elements have been ensured. [None]: the caller does what is not allowed, a fixed addition without ensured space or ensuring
    space for zero elements. *)
Fixpoint memory_spec (ops : list memory_op) (status : list bool) (registered : list registration) (promised : nat) (calls : list registration)
  : option (list registration * list registration) :=
  match ops with
  | [] => match status with [] => Some (registered, calls) | _ => None end
  | MAdd _ r :: rest =>
    match status with
    | true :: status => memory_spec rest status (registered ++ [r]) (promised - 1) calls
    | false :: status => memory_spec rest status registered promised calls
    | [] => None
    end
  | MEnsure _ n :: rest =>
    if n =? 0 then None
    else
      match status with
      | true :: status => memory_spec rest status registered (Nat.max promised n) calls
      | false :: status => memory_spec rest status registered promised calls
      | [] => None
      end
  | MFixed r :: rest => if promised =? 0 then None else memory_spec rest status (registered ++ [r]) (promised - 1) calls
  | MFree :: rest => memory_spec rest status [] 0 (calls ++ registered)
  end.
(** the caller keeps the rules, whatever allocations do: fixed additions only into space that was ensured by calls whose allocation cannot have failed *)
Fixpoint memory_rules (ops : list memory_op) (promised : nat) : Prop :=
  match ops with
  | [] => True
  | MAdd _ _ :: rest => memory_rules rest (promised - 1)
  | MEnsure ok n :: rest => 0 < n /\ memory_rules rest (if ok then Nat.max promised n else promised)
  | MFixed _ :: rest => 0 < promised /\ memory_rules rest (promised - 1)
  | MFree :: rest => memory_rules rest 0
  end.
(** an event without registered memory and without a free function *)
Definition no_memory : memory := {| m_data := None; m_used := 0; m_free := false |}.

(** ** blocks *)
Section Tiles.
Variable T : Type.
Variable generate : nat -> nat -> nat -> T -> option (T * bool).
(** calls of generate for consecutive parts with the given sizes until one fails: size, offset into the block, offset into the event *)
Fixpoint run_tiles (sizes : list nat) (block_offset event_offset : nat) (s : T) : option (T * bool) :=
  match sizes with
  | [] => Some (s, true)
  | n :: rest =>
    '(s, ok) <- generate n block_offset event_offset s ;;
    if (ok : bool) then run_tiles rest (block_offset + n) (event_offset + n) s else Some (s, false)
  end.
End Tiles.

(** ** wave events *)
Section Wave.
Variable V : Type.
Variables add mul : V -> V -> V.
(** element [i] of a modulation array, zero without one *)
Definition modulation (a : option (list Z)) (i : nat) : Z := match a with Some l => nth i l 0%Z | None => 0%Z end.
(** sum of the frequencies of samples [i .. i + n - 1] *)
Fixpoint frequency_sum (cc : wave_channel V) (i n : nat) : Z :=
  match n with O => 0%Z | S n => (frequency_sum cc i n + (frq _ cc + modulation (fmod _ cc) (i + n)))%Z end.
(** index into the waveform at sample [i], if the phase of the configuration is that of sample [first] *)
Definition wave_index (size : Z) (cc : wave_channel V) (first i : nat) : Z :=
  ((phs _ cc + frequency_sum cc first (i - first) + modulation (pmod _ cc) i) mod size)%Z.
(** the sample a channel configuration adds at [i] *)
Definition wave_value (silence : V) (c : wave_config V) (cc : wave_channel V) (first i : nat) : V :=
  mul (mul (amp _ cc) (nth i (match amod _ cc with Some l => l | None => [] end) silence))
      (nth (Z.to_nat (wave_index (wvf_size _ c) cc first i)) (wvf _ c) silence).
(** all used channel configurations add to their channel, in order *)
Definition wave_stage (silence : V) (c : wave_config V) (first : nat) : nat -> frame V -> frame V :=
  fun i f => fold_left (fun f cc => frame_add V add f (channel _ cc) (wave_value silence c cc first i)) (firstn (channel_count _ c) (channel_config _ c)) f.
(** channel configuration [after] is what becomes of [before] if [first] is the first channel's *)
Definition set_or {A : Type} (before first after : option A) : Prop := (before <> None -> after = before) /\ (before = None -> after = first).
Definition inherited (first before after : wave_channel V) : Prop :=
  channel _ after = channel _ before /\
  (use _ before = false ->
    amod _ after = amod _ first /\ amp _ after = amp _ first /\ fmod _ after = fmod _ first /\ frq _ after = frq _ first /\
    phs _ after = phs _ first /\ pmod _ after = pmod _ first /\ use _ after = use _ first) /\
  (use _ before = true ->
    amp _ after = amp _ before /\ phs _ after = phs _ before /\ use _ after = true /\
    set_or (amod _ before) (amod _ first) (amod _ after) /\ set_or (pmod _ before) (pmod _ first) (pmod _ after) /\
    set_or (fmod _ before) (fmod _ first) (fmod _ after) /\
    (frq _ before <> 0 -> frq _ after = frq _ before)%Z /\ (frq _ before = 0 -> frq _ after = frq _ first)%Z).
(** a modulation array, if there is one, has [n] elements that are 32 bit numbers *)
Definition covers (a : option (list Z)) (n : nat) : Prop :=
  match a with Some l => n <= length l /\ Forall (fun x => 0 <= x < two32)%Z l | None => True end.
(** a configuration that can be used for [n] samples and an output with [channels] channels *)
Definition wave_valid (channels n : nat) (c : wave_config V) : Prop :=
  channel_count _ c <= length (channel_config _ c) /\ wvf_size _ c = Z.of_nat (length (wvf _ c)) /\ (0 < wvf_size _ c < two32)%Z /\
  Forall (fun cc => channel _ cc < channels /\ (exists l, amod _ cc = Some l /\ n <= length l) /\ covers (fmod _ cc) n /\ covers (pmod _ cc) n /\
    (0 <= phs _ cc < wvf_size _ c)%Z /\ (0 <= frq _ cc < 65536)%Z) (firstn (channel_count _ c) (channel_config _ c)).
(** the modulation values are small enough for the sums with a phase to be 32 bit numbers *)
Definition wave_small (c : wave_config V) : Prop :=
  Forall (fun cc => forall i, (wvf_size _ c + frq _ cc + modulation (fmod _ cc) i <= two32)%Z /\ (wvf_size _ c + modulation (pmod _ cc) i <= two32)%Z)
    (firstn (channel_count _ c) (channel_config _ c)).
End Wave.

(** ** map events *)
Section Map.
Variables (F M : Type).
Fixpoint zipi (f : nat -> F -> F -> F) (t : nat) (l m : list F) : list F :=
  match l, m with x :: l, y :: m => f t x y :: zipi f (S t) l m | _, _ => [] end.
(** [map_inplace] at relative position [pos] with state [s] replaces each frame x at time t with [m t x] *)
Definition maps_inplace (map_inplace : nat -> nat -> list F -> M -> option (list F * M * bool)) (m : nat -> F -> F) (R : M -> nat -> Prop) : Prop :=
  forall s pos c o rest, R s pos -> pos <= c -> length o = c - pos ->
    exists s', map_inplace pos c (o ++ rest) s = Some (mapi m pos o ++ rest, s', true) /\ R s' c.
(** [map_apart] replaces each frame y of its output with [m t x y] where x is the frame of its input *)
Definition maps_apart (map_apart : nat -> nat -> list F -> list F -> M -> option (list F * M * bool)) (m : nat -> F -> F -> F) (R : M -> nat -> Prop) : Prop :=
  forall s pos c i irest o rest, R s pos -> pos <= c -> length i = c - pos -> length o = c - pos ->
    exists s', map_apart pos c (i ++ irest) (o ++ rest) s = Some (zipi m pos i o ++ rest, s', true) /\ R s' c.
End Map.
