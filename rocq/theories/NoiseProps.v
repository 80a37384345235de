(** Properties C81, C82 and C83: noise events *)
From Verif Require Import Base FilterModel FilterDemo MiscModel RandModel NoiseModel NoiseSpec NoiseProofs NoiseDemo.
Open Scope nat_scope.

(** C81: a noise event with steady filter settings, rendered in calls of any sizes up to four seconds. Every sample of the result is what was in the block plus,
    for every event channel that goes to this block channel, the limited product of the channel's amplitudes and the convolution of the white noise
    (preceded by the channel's lead-in) with the impulse response of its frequency band. The value depends on the event time alone, not on how the
    event is divided into calls. *)
Theorem c81_steady_noise :
  forall (V R : Type) (zero : V) (add mul : V -> V -> V) (limit : V -> V) (draw : R -> V * R) (ir_f : nat -> list Z -> option (list V))
    (pack : Z -> Z -> Z -> Z -> bool -> list Z) (args_size : nat) (junk : nat -> list V) (junkb : nat -> list Z),
  (forall a b c d e, length (pack a b c d e) = args_size) -> (forall n, length (junk n) = n) -> (forall n, length (junkb n) = n) ->
  forall (rate : Z) (duration : nat) (r : R) (c : nconfig V R) (calls : list (nat * list (list V))),
  playable V R ir_f pack rate duration c -> modulated V R c = false ->
  Forall (call_fits V (event_channels V R rate c)) calls -> list_sum (map fst calls) <= duration ->
  Forall (fun call => fst call <= Z.to_nat (4 * rate)) calls ->
  exists c' outs c'', prepare V R zero add mul draw ir_f pack junk junkb rate duration r c = Some (Some c') /\
    noise_run V R zero add mul limit draw ir_f pack junk junkb 0 calls c' = Some (outs, c'') /\
    sounds V add mul limit (event_signals V R draw (filtered V R zero add mul draw ir_f pack (nc_reject V R c)) (event_channels V R rate c) r) 0 calls outs.
Proof. intros V R zero add mul limit draw ir_f pack n junk junkb h1 h2 h3. exact (event_sounds_steady V R zero add mul limit draw ir_f pack n h1 junk junkb h2 h3). Qed.
Print Assumptions c81_steady_noise.

Example c81_steady_instance :
  playable Z Z demo_nir demo_pack 4 8 demo_steady /\ modulated Z Z demo_steady = false /\
  Forall (call_fits Z (event_channels Z Z 4 demo_steady)) (map zeros2 [3; 5]) /\
  demo_play demo_steady [8] = Some [[[-8; -9; -9; -9; 0; 6; -3; -4]; [-4; -15; -18; -18; -9; 15; 3; -13]]]%Z /\
  demo_play demo_steady [3; 5] = Some [[[-8; -9; -9]; [-4; -15; -18]]; [[-9; 0; 6; -3; -4]; [-18; -9; 15; 3; -13]]]%Z.
Proof.
  split; [apply demo_steady_playable; lia|]. split; [reflexivity|]. split; [|split; vm_compute; reflexivity].
  cbv [event_channels nc_channels demo_steady map]. repeat (apply Forall_cons || apply Forall_nil); (split; [vm_compute; lia|]); repeat (apply Forall_cons || apply Forall_nil); eexists; split; try reflexivity; vm_compute; lia.
Qed.

(** C81 for changing filter settings: the settings are updated at the start of every part. The parts are those into which the calls are divided by the
    resolution. *)
Theorem c81_modulated_noise :
  forall (V R : Type) (zero : V) (add mul : V -> V -> V) (limit : V -> V) (draw : R -> V * R) (ir_f : nat -> list Z -> option (list V))
    (pack : Z -> Z -> Z -> Z -> bool -> list Z) (args_size : nat) (junk : nat -> list V) (junkb : nat -> list Z),
  (forall a b c d e, length (pack a b c d e) = args_size) -> (forall n, length (junk n) = n) -> (forall n, length (junkb n) = n) ->
  forall (rate : Z) (duration : nat) (r : R) (c : nconfig V R) (calls : list (nat * list (list V))),
  playable V R ir_f pack rate duration c -> 0 < update_interval V R duration c ->
  Forall (call_fits V (event_channels V R rate c)) calls -> list_sum (map fst calls) <= duration ->
  Forall (fun call => Nat.min (update_interval V R duration c) (fst call) <= Z.to_nat (4 * rate)) calls ->
  exists c' outs c'', prepare V R zero add mul draw ir_f pack junk junkb rate duration r c = Some (Some c') /\
    noise_run V R zero add mul limit draw ir_f pack junk junkb 0 calls c' = Some (outs, c'') /\
    sounds V add mul limit (event_signals V R draw (fun cc lead r1 =>
      filtered_parts V R zero add mul draw ir_f pack (nc_reject V R c) cc lead r1 (all_parts (update_interval V R duration c) (map fst calls)))
      (event_channels V R rate c) r) 0 calls outs.
Proof. intros V R zero add mul limit draw ir_f pack n junk junkb h1 h2 h3. exact (event_sounds V R zero add mul limit draw ir_f pack n h1 junk junkb h2 h3). Qed.
Print Assumptions c81_modulated_noise.

(** C81 (partial) for changing settings: the result does not depend on how the event is divided as long as every call but the last is a multiple of the
    resolution: it is that of one call for the whole time. Missing: other divisions (false, see the refutation). *)
Theorem c81_modulated_multiples_partial :
  forall (V R : Type) (zero : V) (add mul : V -> V -> V) (limit : V -> V) (draw : R -> V * R) (ir_f : nat -> list Z -> option (list V))
    (pack : Z -> Z -> Z -> Z -> bool -> list Z) (args_size : nat) (junk : nat -> list V) (junkb : nat -> list Z),
  (forall a b c d e, length (pack a b c d e) = args_size) -> (forall n, length (junk n) = n) -> (forall n, length (junkb n) = n) ->
  forall (rate : Z) (duration : nat) (r : R) (c : nconfig V R) (calls : list (nat * list (list V))) (last : nat * list (list V)),
  playable V R ir_f pack rate duration c -> 0 < update_interval V R duration c <= Z.to_nat (4 * rate) ->
  Forall (call_fits V (event_channels V R rate c)) (calls ++ [last]) ->
  Forall (fun call => fst call mod update_interval V R duration c = 0) calls -> list_sum (map fst calls) + fst last <= duration ->
  exists c' outs c'', prepare V R zero add mul draw ir_f pack junk junkb rate duration r c = Some (Some c') /\
    noise_run V R zero add mul limit draw ir_f pack junk junkb 0 (calls ++ [last]) c' = Some (outs, c'') /\
    sounds V add mul limit (event_signals V R draw (fun cc lead r1 =>
      filtered_parts V R zero add mul draw ir_f pack (nc_reject V R c) cc lead r1 (parts (update_interval V R duration c) (list_sum (map fst calls) + fst last)))
      (event_channels V R rate c) r) 0 (calls ++ [last]) outs.
Proof. exact event_multiples. Qed.
Print Assumptions c81_modulated_multiples_partial.

Example c81_modulated_instance :
  playable Z Z demo_nir demo_pack 4 8 demo_mod /\ modulated Z Z demo_mod = true /\ update_interval Z Z 8 demo_mod = 2 /\
  Forall (call_fits Z (event_channels Z Z 4 demo_mod)) (map zeros2 [4; 4]) /\
  option_map (fun l => concat (map (hd []) l)) (demo_play demo_mod [8]) = Some [0; 1; -1; 2; -3; -6; -9; -9]%Z /\
  option_map (fun l => concat (map (hd []) l)) (demo_play demo_mod [4; 4]) = Some [0; 1; -1; 2; -3; -6; -9; -9]%Z.
Proof.
  split; [exact demo_mod_playable|]. split; [reflexivity|]. split; [reflexivity|]. split; [|split; vm_compute; reflexivity].
  cbv [event_channels nc_channels demo_mod map]. repeat (apply Forall_cons || apply Forall_nil); (split; [vm_compute; lia|]); repeat (apply Forall_cons || apply Forall_nil); eexists; split; try reflexivity; vm_compute; lia.
Qed.

(** C81 refuted for changing settings: two divisions of the same event into calls give different samples, because the settings are updated at the start of
    every call. *)
Theorem c81_modulated_division_refuted :
  exists (c : nconfig Z Z) (outs1 outs2 : list (list (list Z))),
    playable Z Z demo_nir demo_pack 4 8 c /\ demo_play c [4; 4] = Some outs1 /\ demo_play c [3; 5] = Some outs2 /\
    concat (map (hd []) outs1) = [0; 1; -1; 2; -3; -6; -9; -9]%Z /\ concat (map (hd []) outs2) = [0; 1; -1; 2; 0; 0; -9; -9]%Z.
Proof. exists demo_mod. eexists _, _. split; [exact demo_mod_playable|]. split; [vm_compute; reflexivity|]. split; [vm_compute; reflexivity|]. split; reflexivity. Qed.
Print Assumptions c81_modulated_division_refuted.

(** C82 (partial): rendering a noise event stays inside its temporary buffers when filter transitions are at least two hertz and no call asks for more than
    four seconds between updates of the filter settings. Missing: larger calls and smaller transitions (false, see the refutations). *)
Theorem c82_buffers_partial :
  forall (V R : Type) (zero : V) (add mul : V -> V -> V) (limit : V -> V) (draw : R -> V * R) (ir_f : nat -> list Z -> option (list V))
    (pack : Z -> Z -> Z -> Z -> bool -> list Z) (args_size : nat) (junk : nat -> list V) (junkb : nat -> list Z),
  (forall a b c d e, length (pack a b c d e) = args_size) -> (forall n, length (junk n) = n) -> (forall n, length (junkb n) = n) ->
  forall (rate : Z) (duration : nat) (r : R) (c : nconfig V R) (calls : list (nat * list (list V))),
  playable V R ir_f pack rate duration c -> 0 < update_interval V R duration c ->
  Forall (call_fits V (event_channels V R rate c)) calls -> list_sum (map fst calls) <= duration ->
  Forall (fun call => Nat.min (update_interval V R duration c) (fst call) <= Z.to_nat (4 * rate)) calls ->
  exists c', prepare V R zero add mul draw ir_f pack junk junkb rate duration r c = Some (Some c') /\
    noise_run V R zero add mul limit draw ir_f pack junk junkb 0 calls c' <> None.
Proof. exact event_in_bounds. Qed.
Print Assumptions c82_buffers_partial.

(** C82 refuted: every event with steady settings that lasts longer than four seconds writes outside of its buffers when more than four seconds are requested
    in one call. *)
Theorem c82_large_call_refuted :
  forall (V R : Type) (zero : V) (add mul : V -> V -> V) (limit : V -> V) (draw : R -> V * R) (ir_f : nat -> list Z -> option (list V))
    (pack : Z -> Z -> Z -> Z -> bool -> list Z) (args_size : nat) (junk : nat -> list V) (junkb : nat -> list Z),
  (forall a b c d e, length (pack a b c d e) = args_size) -> (forall n, length (junk n) = n) -> (forall n, length (junkb n) = n) ->
  forall (rate : Z) (duration : nat) (r : R) (c : nconfig V R) (n : nat) (out : list (list V)),
  playable V R ir_f pack rate duration c -> modulated V R c = false -> Z.to_nat (4 * rate) < n <= duration ->
  exists c', prepare V R zero add mul draw ir_f pack junk junkb rate duration r c = Some (Some c') /\
    noise_run V R zero add mul limit draw ir_f pack junk junkb 0 [(n, out)] c' = None.
Proof. intros V R zero add mul limit draw ir_f pack n junk junkb h1 h2 h3. exact (event_large_call V R zero add mul limit draw ir_f pack n h1 junk junkb h2 h3). Qed.
Print Assumptions c82_large_call_refuted.
Example c82_large_call_instance : playable Z Z demo_nir demo_pack 1 8 demo_steady /\ modulated Z Z demo_steady = false /\ Z.to_nat (4 * 1) < 5 <= 8.
Proof. split; [apply demo_steady_playable; lia|]. split; [reflexivity|vm_compute; lia]. Qed.

(** C82 refuted: preparing an event whose smallest transition is one hertz writes outside of the buffers: four seconds are one sample less than the impulse
    response. *)
Theorem c82_transition_refuted :
  forall (V R : Type) (zero : V) (add mul : V -> V -> V) (draw : R -> V * R) (ir_f : nat -> list Z -> option (list V))
    (pack : Z -> Z -> Z -> Z -> bool -> list Z) (args_size : nat) (junk : nat -> list V) (junkb : nat -> list Z),
  (forall a b c d e, length (pack a b c d e) = args_size) -> (forall n, length (junk n) = n) -> (forall n, length (junkb n) = n) ->
  forall (rate : Z) (duration : nat) (r : R) (c : nconfig V R) (c0 : nchannel V) (l : list (nchannel V)), 
  (0 < rate)%Z -> (4 * rate < 2 ^ 32)%Z -> nc_channels V R c = c0 :: l -> n_amod V c0 <> None -> Z.min (n_trnl V c0) (n_trnh V c0) = 1%Z ->
  prepare V R zero add mul draw ir_f pack junk junkb rate duration r c = None.
Proof. intros V R zero add mul draw ir_f pack n junk junkb h1 h2 h3. exact (transition_one V R zero add mul (fun x => x) draw ir_f pack n h1 junk junkb h2 h3). Qed.
Print Assumptions c82_transition_refuted.
Example c82_transition_instance :
  demo_prepare 4%Z 8 5%Z {| nc_reject := false; nc_random := 0%Z; nc_resolution := 2; nc_temp := []; nc_channels := [demo_channel 0 1 2 1 None 1 true (Some ones)] |} = None.
Proof. vm_compute. reflexivity. Qed.

(** C83 (partial): settings that a channel after the first leaves out are those of the first channel. Missing: the frequency, see the refutation. *)
Theorem c83_defaults_partial :
  forall (V R : Type) (zero : V) (add mul : V -> V -> V) (draw : R -> V * R) (ir_f : nat -> list Z -> option (list V))
    (pack : Z -> Z -> Z -> Z -> bool -> list Z) (junk : nat -> list V) (junkb : nat -> list Z)
    (rate : Z) (duration : nat) (r : R) (c : nconfig V R) (c0 : nchannel V) (l : list (nchannel V)) (c' : nconfig V R),
  nc_channels V R c = c0 :: l -> prepare V R zero add mul draw ir_f pack junk junkb rate duration r c = Some (Some c') ->
  exists c0' l', nc_channels V R c' = c0' :: l' /\ Forall2 (with_defaults V c0) l l'.
Proof. exact prepare_defaults. Qed.
Print Assumptions c83_defaults_partial.
Example c83_instance :
  option_map (option_map (fun c' => map (fun cc => (n_channel Z cc, n_amp Z cc, n_wdt Z cc, n_trnl Z cc)) (nc_channels Z Z c'))) (demo_prepare 4%Z 8 5%Z demo_steady) =
  Some (Some [(0, 1%Z, 1%Z, 2%Z); (1, 2%Z, 3%Z, 2%Z); (1, 1%Z, 1%Z, 2%Z)]).
Proof. vm_compute. reflexivity. Qed.

(** C83 refuted: a channel with filter settings but no frequency does not get the frequency of the first channel, it keeps zero. *)
Theorem c83_frequency_refuted :
  exists (c c' : nconfig Z Z) (c0 c1 : nchannel Z), nc_channels Z Z c = [c0; c1] /\ n_frq Z c0 = 2%Z /\ n_use Z c1 = true /\ n_wdt Z c1 = 3%Z /\ n_frq Z c1 = 0%Z /\ n_fmod Z c1 = None /\
    demo_prepare 4%Z 8 5%Z c = Some (Some c') /\ map (n_frq Z) (nc_channels Z Z c') = [2; 0]%Z.
Proof.
  exists {| nc_reject := false; nc_random := 0%Z; nc_resolution := 2; nc_temp := []; nc_channels := [demo_channel 0 1 2 1 None 2 true (Some ones); demo_channel 1 2 0 3 None 0 true None] |}.
  eexists _, _, _. split; [reflexivity|]. repeat (split; [reflexivity|]). split; vm_compute; reflexivity.
Qed.
Print Assumptions c83_frequency_refuted.
