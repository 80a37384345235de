(** Theorems about events. *)
From Verif Require Import Base SeqModel SeqSpec SeqLifeSpec SeqRenderSpec SeqDemo EvModel EvSpec EvProofs Ev2Proofs Ev3Proofs.
Open Scope nat_scope.

(** C15: the generator is called, until it fails, for consecutive parts of the range: none is empty, none longer than the resolution, all
    but the last have the same size, and together they are the whole range. The first part is at offset 0 of the output and at offset
    [start] of the event. What the generator does has no influence on the parts. *)
Theorem c15_block_generate_tiles :
  forall resolution start end_ : nat, start < end_ -> 0 < resolution ->
  exists sizes, list_sum sizes = end_ - start /\ Forall (fun n => 0 < n <= resolution) sizes /\
    (exists count rest, sizes = repeat (Nat.min resolution (end_ - start)) count ++ rest /\ length rest <= 1) /\
    forall T generate (s : T), block_generate T generate resolution start end_ s = run_tiles T generate sizes 0 start s.
Proof. exact block_generate_tiles. Qed.
Print Assumptions c15_block_generate_tiles.

Definition log_calls (size block_offset event_offset : nat) (log : list (nat * nat * nat)) : option (list (nat * nat * nat) * bool) :=
  Some (log ++ [(size, block_offset, event_offset)], true).
Example c15_instance : block_generate _ log_calls 3 5 13 [] = Some ([(3, 0, 5); (3, 3, 8); (2, 6, 11)], true).
Proof. reflexivity. Qed.

(** C15: an empty range divides by zero. *)
Theorem c15_empty_range :
  forall (T : Type) (generate : nat -> nat -> nat -> T -> option (T * bool)) (resolution start : nat) (s : T),
  block_generate T generate resolution start start s = None.
Proof. exact block_generate_empty. Qed.
Print Assumptions c15_empty_range.

(** C16: whatever additions, ensurings and frees are called in whatever order and whatever allocations fail, provided that fixed
    additions only use space that was ensured and that no space for zero elements is ensured: no access is outside the registry, and every free calls exactly the handlers registered
    since the previous one, in the order of registration. *)
Theorem c16_registry_partial :
  forall (ops : list memory_op) (free_set : bool), memory_rules ops 0 ->
  exists m calls status registered,
    run_memory ops {| m_data := None; m_used := 0; m_free := free_set |} = Some (m, calls, status) /\
    memory_spec ops status [] 0 [] = Some (registered, calls).
Proof. exact registry_correct. Qed.
Print Assumptions c16_registry_partial.

Example c16_instance :
  let r := fun i => (100 + i, i) in
  let ops := [MAdd true (r 0); MEnsure true 5; MFixed (r 1); MFixed (r 2); MFixed (r 3); MFixed (r 4); MFixed (r 5); MAdd false (r 6); MAdd true (r 7); MFree; MFree] in
  memory_rules ops 0 /\ option_map (fun x => (snd (fst x), snd x)) (run_memory ops no_memory) = Some ([r 0; r 1; r 2; r 3; r 4; r 5; r 7], [true; true; false; true]).
Proof. cbn. split; [repeat split; lia|reflexivity]. Qed.

(** C16: something is registered only if the event's free function is set, that is, it will be freed. *)
Theorem c16_registered_is_freed :
  forall (ops : list memory_op) (free_set : bool) m calls status registered,
  memory_rules ops 0 -> run_memory ops {| m_data := None; m_used := 0; m_free := free_set |} = Some (m, calls, status) ->
  memory_spec ops status [] 0 [] = Some (registered, calls) -> registered <> [] -> m_free m = true.
Proof. exact registered_free_set. Qed.
Print Assumptions c16_registered_is_freed.

(** C16: a second free directly after the first calls nothing, for any memory. *)
Theorem c16_second_free :
  forall (m m' : memory) (calls : list registration), memory_free m = Some (calls, m') -> memory_free m' = Some ([], m').
Proof. exact second_free. Qed.
Print Assumptions c16_second_free.

(** C16: ensuring space for zero elements and adding then is undefined. *)
Theorem c16_ensure_zero_refuted : forall r, run_memory [MEnsure true 0; MAdd true r] no_memory = None.
Proof. intros r. reflexivity. Qed.
Print Assumptions c16_ensure_zero_refuted.

(** C19: for arbitrary 32 bit modulation values all accesses are inside the arrays and the phases stay below the waveform size. Samples
    beyond the range are unchanged. Nothing is assumed about sample addition and multiplication. *)
Theorem c19_in_bounds :
  forall (V : Type) (add mul : V -> V -> V) (channels start end_ : nat) (out : list (frame V)) (c : wave_config V),
  wave_valid V channels end_ c -> start <= end_ -> end_ - start <= length out ->
  exists out' c', wave_generate V add mul channels start end_ out c = Some (out', c') /\
    wave_valid V channels end_ c' /\ length out' = length out /\ skipn (end_ - start) out' = skipn (end_ - start) out.
Proof. exact wave_in_bounds. Qed.
Print Assumptions c19_in_bounds.

(** C19: consecutive ranges give the same samples, and the same state, as the whole range. *)
Theorem c19_partition :
  forall (V : Type) (add mul : V -> V -> V) (silence : V) (channels start mid end_ : nat) (o1 o2 rest : list (frame V)) (c : wave_config V),
  wave_valid V channels end_ c -> start <= mid <= end_ -> length o1 = mid - start -> length o2 = end_ - mid ->
  exists c1 c2 o1' o2', wave_generate V add mul channels start mid (o1 ++ o2 ++ rest) c = Some (o1' ++ o2 ++ rest, c1) /\
    wave_generate V add mul channels mid end_ (o2 ++ rest) c1 = Some (o2' ++ rest, c2) /\
    wave_generate V add mul channels start end_ (o1 ++ o2 ++ rest) c = Some (o1' ++ o2' ++ rest, c2).
Proof. exact wave_partition. Qed.
Print Assumptions c19_partition.

(** C19: the samples are those of the specification if no sum of a phase and modulation exceeds 32 bit. Missing from the full statement:
    arbitrary modulation values, see [c19_large_modulation_refuted]. *)
Theorem c19_samples_partial :
  forall (V : Type) (add mul : V -> V -> V) (silence : V) (channels start : nat) (o rest : list (frame V)) (n : nat) (c : wave_config V),
  wave_valid V channels n c -> wave_small V c -> start + length o <= n ->
  exists c', wave_generate V add mul channels start (start + length o) (o ++ rest) c = Some (mapi (wave_stage V add mul silence c start) start o ++ rest, c') /\
    wave_valid V channels n c'.
Proof. exact wave_generate_sum. Qed.
Print Assumptions c19_samples_partial.

(** C19: a wave event keeps the contract of events that the sequencer theorems assume, so [c12_rendering_is_pointwise],
    [c12_partition_invariant] and [c14_parallel_equals_sequential] hold for it. *)
Theorem c19_wave_event_plays_partial :
  forall (V : Type) (add mul : V -> V -> V) (silence : V) (channels : nat) (e : event (wave_config V)) (c : wave_config V) (n : nat),
  (if ev_prepare _ e then wave_prepare V (ev_data _ e) = Some c else ev_data _ e = c) ->
  wave_valid V channels n c -> wave_small V c -> ev_end _ e - ev_start _ e <= n ->
  plays (frame V) (wave_config V) (wave_event_prepare V) (wave_event_generate V add mul channels) e 0 (wave_stage V add mul silence c 0).
Proof. exact wave_plays. Qed.
Print Assumptions c19_wave_event_plays_partial.

(** C19, C12: a list of wave events rendered by sp_seq in whatever blocks gives at each time the sum of the waves that are active. *)
Theorem c19_wave_events_rendered_partial :
  forall (V : Type) (add mul : V -> V -> V) (silence : V) (channels t : nat) (blocks : list (nat * list (frame V)))
    (h : heap (wave_config V)) (head : option nat) (L : list (nat * event (wave_config V))),
  represents _ h head L -> sorted _ (map snd L) ->
  Forall (fun e => ev_start _ e <= ev_end _ e /\ t <= ev_start _ e /\ ev_prepare _ e = false /\
    wave_valid V channels (ev_end _ e - ev_start _ e) (ev_data _ e) /\ wave_small V (ev_data _ e)) (map snd L) ->
  blocks_exact (frame V) t blocks ->
  exists r, run_blocks (frame V) _ (wave_event_prepare V) (wave_event_generate V add mul channels) t blocks head h = Some r /\ rr_ok _ _ r = true /\
    concat (rr_outs _ _ r) = render (frame V) _ (map (fun e => (e, wave_stage V add mul silence (ev_data _ e) 0)) (map snd L)) t (concat (map snd blocks)).
Proof. exact wave_rendered. Qed.
Print Assumptions c19_wave_events_rendered_partial.

Definition demo_channel (ch : nat) (fm pm : option (list Z)) (p : Z) (used : bool) : wave_channel Z :=
  {| amod := Some [1; 1; 2; 1]%Z; amp := 2%Z; channel := ch; fmod := fm; frq := 1%Z; phs := p; pmod := pm; use := used |}.
Definition demo_wave (l : list (wave_channel Z)) : wave_config Z := {| wvf := [5; 7; 11]%Z; wvf_size := 3%Z; channel_count := length l; channel_config := l |}.
Definition demo_wave_config : wave_config Z := demo_wave [demo_channel 0 None (Some [0; 0; 1; 0]%Z) 0%Z true; demo_channel 1 (Some [1; 0; 0; 0]%Z) None 1%Z true].
Lemma demo_valid : wave_valid Z 2 4 demo_wave_config /\ wave_small Z demo_wave_config.
Proof.
  split.
  - unfold wave_valid. cbn. unfold two32. repeat split; auto; try lia.
    repeat (constructor; [cbn; repeat split; try lia; try (eexists; split; [reflexivity|cbn; lia]); try (cbn; repeat constructor; unfold two32; lia)|]). constructor.
  - unfold wave_small. cbn. unfold two32. repeat (constructor; [intros i; cbn; split; do 5 (destruct i; cbn; try lia)|]); constructor.
Qed.
Example c19_instance :
  wave_valid Z 2 4 demo_wave_config /\ wave_small Z demo_wave_config /\
  option_map (fun x => map (fun f => (f 0, f 1)) (fst x)) (wave_generate Z Z.add Z.mul 2 0 4 (repeat (fun _ => 0%Z) 4) demo_wave_config) =
    Some [(10, 14); (14, 10); (20, 28); (10, 22)]%Z.
Proof. split; [apply demo_valid|]. split; [apply demo_valid|reflexivity]. Qed.

(** C19: with larger modulation the phase is not the running sum modulo the waveform size: for every waveform and phase [p] but 0, after the increment 2^32 - p the next sample is
    the first of the waveform instead of the one with index 2^32 modulo the size. These are different samples for every size that is not a power of two. *)
Definition large_modulation {V : Type} (table : list V) (a x y : V) (p : Z) : wave_config V :=
  {| wvf := table; wvf_size := Z.of_nat (length table); channel_count := 1;
     channel_config := [{| amod := Some [x; y]; amp := a; channel := 0; fmod := Some [(two32 - p)%Z; 0%Z]; frq := 0%Z; phs := p; pmod := None; use := true |}] |}.
Theorem c19_large_modulation_refuted :
  forall (V : Type) (add mul : V -> V -> V) (silence : V) (table : list V) (a x y : V) (p : Z) (f0 f1 : frame V),
  (0 < p < Z.of_nat (length table))%Z -> (Z.of_nat (length table) < two32)%Z ->
  wave_valid V 1 2 (large_modulation table a x y p) /\
  exists g0 g1 c', wave_generate V add mul 1 0 2 [f0; f1] (large_modulation table a x y p) = Some ([g0; g1], c') /\ g1 0 = add (f1 0) (mul (mul a y) (nth 0 table silence)) /\
    option_map (fun f => f 0) (nth_error (mapi (wave_stage V add mul silence (large_modulation table a x y p) 0) 0 [f0; f1]) 1) =
      Some (add (f1 0) (mul (mul a y) (nth (Z.to_nat (two32 mod Z.of_nat (length table))) table silence))).
Proof.
  intros V add mul silence table a x y p f0 f1 hp hl. assert (h0 : (p <? Z.of_nat (length table))%Z = true) by (apply Z.ltb_lt; lia). split.
  - unfold wave_valid, large_modulation. cbn [channel_count channel_config wvf wvf_size firstn length]. split; [lia|]. split; [reflexivity|]. split; [lia|]. constructor; [|constructor].
    cbn [channel amod fmod pmod phs frq]. split; [lia|]. split; [eexists; split; [reflexivity|cbn; lia]|]. split; [split; [cbn; lia|]; repeat constructor; unfold two32 in *; lia|]. split; [exact I|lia].
  - destruct (nth_error table (Z.to_nat p)) as [w|] eqn:ew; [|apply nth_error_None in ew; lia]. destruct (nth_error table 0) as [w0|] eqn:e0; [|apply nth_error_None in e0; lia].
    assert (u1 : u32 (p + u32 (0 + (two32 - p))) = 0%Z). { unfold u32. rewrite Z.add_0_l, (Z.mod_small (two32 - p)) by lia. replace (p + (two32 - p))%Z with two32 by ring. apply Z.mod_same. unfold two32. lia. }
    assert (w1 : wrap 0 (Z.of_nat (length table)) = Some 0%Z) by (unfold wrap; destruct (Z.leb_spec (Z.of_nat (length table)) 0); [lia|reflexivity]).
    assert (u2 : u32 (0 + u32 (0 + 0)) = 0%Z) by reflexivity.
    set (c := large_modulation table a x y p). set (cc := {| amod := Some [x; y]; amp := a; channel := 0; fmod := Some [(two32 - p)%Z; 0%Z]; frq := 0%Z; phs := p; pmod := None; use := true |}).
    assert (s0 : wave_sample V add mul 1 0 c cc 0 ([f0; f1], p) = Some ([frame_add V add f0 0 (mul (mul a x) w); f1], 0%Z)).
    { unfold wave_sample. cbn [optional pmod cc bind channel need Nat.ltb Nat.leb]. change (wvf V c) with table. change (wvf_size V c) with (Z.of_nat (length table)). cbn [Nat.sub aget nth_error bind amod cc]. unfold aget. rewrite ew. cbn [bind aset fmod cc optional nth_error frq amp channel aget]. rewrite u1, w1. reflexivity. }
    assert (s1 : wave_sample V add mul 1 0 c cc 1 ([frame_add V add f0 0 (mul (mul a x) w); f1], 0%Z) = Some ([frame_add V add f0 0 (mul (mul a x) w); frame_add V add f1 0 (mul (mul a y) w0)], 0%Z)).
    { unfold wave_sample. cbn [optional pmod cc bind channel need Nat.ltb Nat.leb]. change (wvf V c) with table. change (wvf_size V c) with (Z.of_nat (length table)). cbn [Nat.sub aget nth_error bind amod cc]. unfold aget. change (Z.to_nat 0) with 0. rewrite e0. cbn [bind aset fmod cc optional nth_error frq amp channel aget]. rewrite u2, w1. reflexivity. }
    eexists _, _, _. split; [|split].
    + unfold wave_generate. change (channel_count V c) with 1. change (channel_config V c) with [cc]. unfold for_ at 1. cbn [Nat.sub for_from aget nth_error bind]. unfold for_. cbn [Nat.sub for_from]. change (phs V cc) with p. rewrite s0. cbn [bind]. rewrite s1. cbn [bind aset]. reflexivity.
    + unfold frame_add. cbn [Nat.eqb]. rewrite (nth_error_nth _ _ silence e0). reflexivity.
    + assert (ei : wave_index V (Z.of_nat (length table)) cc 0 1 = (two32 mod Z.of_nat (length table))%Z).
      { unfold wave_index. f_equal. change (phs V cc + (0 + (0 + (two32 - p))) + 0 = two32)%Z. change (phs V cc) with p. ring. }
      change (Some (frame_add V add f1 0 (mul (mul a y) (nth (Z.to_nat (wave_index V (Z.of_nat (length table)) cc 0 1)) table silence)) 0) =
        Some (add (f1 0) (mul (mul a y) (nth (Z.to_nat (two32 mod Z.of_nat (length table))) table silence)))). rewrite ei. reflexivity.
Qed.
Print Assumptions c19_large_modulation_refuted.
(** a waveform of three samples *)
Definition large_config : wave_config Z :=
  demo_wave [{| amod := Some [1; 1]%Z; amp := 1%Z; channel := 0; fmod := Some [4294967295; 0]%Z; frq := 0%Z; phs := 2%Z; pmod := None; use := true |}].
Example c19_large_modulation_instance :
  wave_valid Z 1 2 large_config /\
  option_map (fun x => map (fun f => f 0) (fst x)) (wave_generate Z Z.add Z.mul 1 0 2 (repeat (fun _ => 0%Z) 2) large_config) = Some [11; 7]%Z /\
  map (fun f => f 0) (mapi (wave_stage Z Z.add Z.mul 0%Z large_config 0) 0 (repeat (fun _ => 0%Z) 2)) = [11; 11]%Z.
Proof.
  split; [|split; vm_compute; reflexivity]. unfold wave_valid. cbn. unfold two32. repeat split; auto; try lia.
  constructor; [|constructor]. cbn. repeat split; try lia; [eexists; split; [reflexivity|cbn; lia]|repeat constructor; unfold two32; lia].
Qed.

(** C20: preparing leaves the first channel as it is, the others inherit, elements after channel_count are unchanged. *)
Theorem c20_channels_inherit :
  forall (V : Type) (c : wave_config V), 0 < channel_count _ c <= length (channel_config _ c) ->
  exists c', wave_prepare V c = Some c' /\ wvf _ c' = wvf _ c /\ wvf_size _ c' = wvf_size _ c /\ channel_count _ c' = channel_count _ c /\
    length (channel_config _ c') = length (channel_config _ c) /\
    (exists first, nth_error (channel_config _ c) 0 = Some first /\ nth_error (channel_config _ c') 0 = Some first /\
      (forall i cc, 0 < i < channel_count _ c -> nth_error (channel_config _ c) i = Some cc ->
        exists cc', nth_error (channel_config _ c') i = Some cc' /\ inherited V first cc cc')) /\
    (forall i, channel_count _ c <= i -> nth_error (channel_config _ c') i = nth_error (channel_config _ c) i).
Proof. exact prepare_inherits. Qed.
Print Assumptions c20_channels_inherit.

(** [inherited] determines the configuration *)
Theorem c20_inherited_unique :
  forall (V : Type) (first cc a b : wave_channel V), inherited V first cc a -> inherited V first cc b -> a = b.
Proof. exact inherited_unique. Qed.
Print Assumptions c20_inherited_unique.

Theorem c20_idempotent :
  forall (V : Type) (c c' : wave_config V), 0 < channel_count _ c <= length (channel_config _ c) -> wave_prepare V c = Some c' -> wave_prepare V c' = Some c'.
Proof. exact prepare_idempotent. Qed.
Print Assumptions c20_idempotent.

Example c20_instance :
  let c := demo_wave [demo_channel 0 (Some [3%Z]) None 1%Z true; demo_channel 1 None (Some [4%Z]) 2%Z true; demo_channel 2 None None 2%Z false] in
  wave_prepare Z c = Some (demo_wave [demo_channel 0 (Some [3%Z]) None 1%Z true; demo_channel 1 (Some [3%Z]) (Some [4%Z]) 2%Z true; demo_channel 2 (Some [3%Z]) None 1%Z true]).
Proof. reflexivity. Qed.

(** C20: a channel count above the number of elements, sp_channel_count_limit, is outside of the array. *)
Theorem c20_too_many_channels :
  forall (V : Type) (c : wave_config V), 1 < channel_count _ c -> length (channel_config _ c) < channel_count _ c -> wave_prepare V c = None.
Proof. exact prepare_too_many. Qed.
Print Assumptions c20_too_many_channels.
Example c20_too_many_instance : wave_prepare Z {| wvf := [1%Z]; wvf_size := 1%Z; channel_count := 2; channel_config := [demo_channel 0 None None 0%Z true] |} = None.
Proof. reflexivity. Qed.

(** C63: if the wrapped event, which is to be at least as long, applies [g] to each frame and the map function [m], then the map event
    applies [g] and then [m], in any blocks. *)
Theorem c63_map_event :
  forall (F D M : Type) (prepare : event D -> option (event D)) (generate : nat -> nat -> list F -> event D -> option (list F * event D * bool))
    (map_inplace : nat -> nat -> list F -> M -> option (list F * M * bool)) (Rm : M -> nat -> Prop) (m g : stage F) (e : event (map_config D M)) (pos : nat),
  maps_inplace F M map_inplace m Rm ->
  plays F D prepare generate (mc_event _ _ (ev_data _ e)) pos g -> Rm (mc_state _ _ (ev_data _ e)) pos ->
  (ev_prepare _ e = false -> ev_prepare _ (mc_event _ _ (ev_data _ e)) = false) ->
  ev_end _ e - ev_start _ e <= ev_end _ (mc_event _ _ (ev_data _ e)) - ev_start _ (mc_event _ _ (ev_data _ e)) ->
  plays F (map_config D M) (map_prepare D M prepare) (map_generate F D M generate map_inplace) e pos (fun k x => m k (g k x)).
Proof. intros F D M prepare generate mi. exact (map_plays F D M prepare generate mi (fun _ _ _ o s => Some (o, s, true))). Qed.
Print Assumptions c63_map_event.

(** C63: an isolated map function gets what the wrapped event makes of silence, whatever is in the output already, and decides itself what
    to do with the output. *)
Theorem c63_isolated_map_event :
  forall (F D M : Type) (zero : F) (prepare : event D -> option (event D))
    (generate : nat -> nat -> list F -> event D -> option (list F * event D * bool))
    (map_apart : nat -> nat -> list F -> list F -> M -> option (list F * M * bool)) (extra : nat) (Rm : M -> nat -> Prop) (m : nat -> F -> F -> F) (g : stage F)
    (e : event (map_config D M)) (pos : nat),
  maps_apart F M map_apart m Rm ->
  plays F D prepare generate (mc_event _ _ (ev_data _ e)) pos g -> Rm (mc_state _ _ (ev_data _ e)) pos ->
  (ev_prepare _ e = false -> ev_prepare _ (mc_event _ _ (ev_data _ e)) = false) ->
  ev_end _ e - ev_start _ e <= ev_end _ (mc_event _ _ (ev_data _ e)) - ev_start _ (mc_event _ _ (ev_data _ e)) ->
  plays F (map_config D M) (map_prepare D M prepare) (map_isolated_generate F D M zero generate map_apart true extra) e pos (fun k y => m k (g k zero) y).
Proof. intros F D M zero prepare generate ma. exact (map_isolated_plays F D M zero prepare generate (fun _ _ o s => Some (o, s, true)) ma). Qed.
Print Assumptions c63_isolated_map_event.

(** C63: with any callbacks, nothing of what other events have written reaches the wrapped event or the input of an isolated map function: if
    the function itself uses only its input, which it may remember in its state, then its state, the state of the wrapped event and the status
    are the same for different outputs. *)
Theorem c63_isolated_input :
  forall (F D M : Type) (zero : F) (generate : nat -> nat -> list F -> event D -> option (list F * event D * bool))
    (map_apart : nat -> nat -> list F -> list F -> M -> option (list F * M * bool)) (extra start end_ : nat) (out1 out2 : list F) (e : event (map_config D M)),
  (forall a b i o1 o2 s, option_map (fun r => (snd (fst r), snd r)) (map_apart a b i o1 s) = option_map (fun r => (snd (fst r), snd r)) (map_apart a b i o2 s)) ->
  length out1 = length out2 ->
  option_map (fun r => (snd (fst r), snd r)) (map_isolated_generate F D M zero generate map_apart true extra start end_ out1 e) =
  option_map (fun r => (snd (fst r), snd r)) (map_isolated_generate F D M zero generate map_apart true extra start end_ out2 e).
Proof. exact isolated_independent. Qed.
Print Assumptions c63_isolated_input.

(** C63: if the wrapped event fails then the map event fails with what the wrapped event has written, and the map function, whatever it
    would do, has no influence. *)
Theorem c63_failure :
  forall (F D M : Type) (generate : nat -> nat -> list F -> event D -> option (list F * event D * bool)) (map_inplace : nat -> nat -> list F -> M -> option (list F * M * bool))
    start end_ out (e : event (map_config D M)) out' inner,
  generate start end_ out (mc_event _ _ (ev_data _ e)) = Some (out', inner, false) ->
  exists e', map_generate F D M generate map_inplace start end_ out e = Some (out', e', false) /\
    mc_event _ _ (ev_data _ e') = inner /\ mc_state _ _ (ev_data _ e') = mc_state _ _ (ev_data _ e).
Proof. exact map_failure. Qed.
Print Assumptions c63_failure.

(** C63: freeing a map event frees a wrapped event with a free function exactly once; preparing sets the free function. *)
Theorem c63_free :
  forall (D M : Type) (prepare : event D -> option (event D)) (e e' : event (map_config D M)),
  (ev_free _ (mc_event _ _ (ev_data _ e)) = true -> map_free D M e = [AFree D (mc_event _ _ (ev_data _ e))]) /\
  (ev_free _ (mc_event _ _ (ev_data _ e)) = false -> map_free D M e = []) /\
  (map_prepare D M prepare e = Some e' -> ev_free _ e' = true).
Proof. exact map_free_correct. Qed.
Print Assumptions c63_free.

Definition demo_map (start end_ : nat) (out : list Z) (k : Z) : option (list Z * Z * bool) := Some (mapi (fun _ x => (k * x)%Z) start (firstn (end_ - start) out) ++ skipn (end_ - start) out, k, true).
Definition demo_map_apart (start end_ : nat) (i out : list Z) (k : Z) : option (list Z * Z * bool) :=
  Some (zipi Z (fun _ x y => (k * x + y)%Z) start (firstn (end_ - start) i) (firstn (end_ - start) out) ++ skipn (end_ - start) out, k, true).
Definition demo_map_event : event (map_config Z Z) :=
  {| ev_id := 9; ev_start := 1; ev_end := 4; ev_prepare := true; ev_free := false;
     ev_data := {| mc_event := {| ev_id := 1; ev_start := 1; ev_end := 4; ev_prepare := true; ev_free := true; ev_data := 100%Z |}; mc_state := 3%Z |} |}.
Example c63_instance :
  maps_inplace Z Z demo_map (fun _ x => (3 * x)%Z) (fun k _ => k = 3%Z) /\
  maps_apart Z Z demo_map_apart (fun _ x y => (3 * x + y)%Z) (fun k _ => k = 3%Z) /\
  plays Z Z demo_prepare demo_generate (mc_event _ _ (ev_data _ demo_map_event)) 0 (demo_signal 100%Z) /\
  option_map (fun r => fst (fst r)) (e <- map_prepare Z Z demo_prepare demo_map_event ;; map_generate Z Z Z demo_generate demo_map 0 2 [1; 1; 1]%Z (prepared _ e)) = Some [303; 306; 1]%Z /\
  option_map (fun r => fst (fst r)) (e <- map_prepare Z Z demo_prepare demo_map_event ;; map_isolated_generate Z Z Z 0%Z demo_generate demo_map_apart true 0 0 2 [1; 1; 1]%Z (prepared _ e)) = Some [301; 304; 1]%Z.
Proof.
  splits; try reflexivity.
  - intros k pos c o rest -> hc ho. exists 3%Z. unfold demo_map. rewrite <- ho, skipn_app_exact by reflexivity. rewrite firstn_app, firstn_all, Nat.sub_diag, firstn_O, app_nil_r. split; reflexivity.
  - intros k pos c i irest o rest -> hc hi ho. exists 3%Z. unfold demo_map_apart. rewrite (skipn_app_exact o) by exact ho.
    rewrite <- hi at 1. rewrite <- ho. rewrite !firstn_app, !firstn_all, !Nat.sub_diag, !firstn_O, !app_nil_r. split; reflexivity.
  - apply demo_plays.
Qed.
