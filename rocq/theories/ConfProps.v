(** Property C104: events with a default configuration *)
From Verif Require Import Base ConvolveSpec EvModel NoiseModel NoiseSpec NoiseDemo ConfModel ConfSpec ConfProofs.
Open Scope nat_scope.

(** C104 (partial), waves: every one of the [count] configurations that sp_wave_event_config_new_n makes, with amplitudes and a frequency set for the first
    channel, adds the sine of this frequency to both channels of an output with at least two channels. Missing: outputs with one channel, see the
    refutation. *)
Theorem c104_wave_partial :
  forall (V : Type) (zero one : V) (add mul : V -> V -> V) (sine : list V) (rate : Z) (channels count : nat) (block : list (wave_config V)) (a : list V) (f : Z)
    (n : nat) (out : list (frame V)) (k : nat),
  (0 < rate)%Z -> rate = Z.of_nat (length sine) -> (rate + 65535 <= 2 ^ 32)%Z -> (0 <= f < 65536)%Z -> 2 <= channels -> length block = count -> k < count ->
  n <= length a -> length out = n ->
  exists configs c, config_new_n (wave_defaults V zero one sine rate) count (Some block) = Some (Some configs) /\ length configs = count /\ nth_error configs k = Some c /\
    exists c1 out' c2, wave_prepare V (wave_with V a f c) = Some c1 /\ wave_generate V add mul channels 0 n out c1 = Some (out', c2) /\ length out' = n /\
      forall t before, nth_error out t = Some before -> exists after, nth_error out' t = Some after /\ on_both V add (tone V zero one mul sine a f t) before after.
Proof. exact wave_default_sounds. Qed.
Print Assumptions c104_wave_partial.
Example c104_wave_instance :
  let play c := c1 <- wave_prepare Z (wave_with Z [1; 2; 3]%Z 2%Z c) ;; wave_generate Z Z.add Z.mul 2 0 3 (repeat (fun _ => 100%Z) 3) c1 in
  option_map (fun r => map (fun f => (f 0, f 1, f 2)) (fst r)) (c <- wave_defaults Z 0%Z 1%Z [0; 5; 7; 5; 0]%Z 5 ;; play c) =
  Some [(100, 100, 100); (114, 114, 100); (100, 100, 100)]%Z.
Proof. reflexivity. Qed.

(** C104 refuted, waves: whatever the waveform, frequency and amplitudes, a default configuration played on an output with one channel writes to a channel
    that does not exist. *)
Theorem c104_wave_mono_refuted :
  forall (V : Type) (zero one : V) (add mul : V -> V -> V) (sine : list V) (rate : Z) (a : list V) (f : Z) (n : nat) (out : list (frame V)) (c : wave_config V),
  wave_defaults V zero one sine rate = Some c -> 0 < n ->
  exists c1, wave_prepare V (wave_with V a f c) = Some c1 /\ wave_generate V add mul 1 0 n out c1 = None.
Proof. exact wave_default_mono. Qed.
Print Assumptions c104_wave_mono_refuted.
Example c104_wave_mono_instance : exists c, wave_defaults Z 0%Z 1%Z [0; 5; 7; 5; 0]%Z 5 = Some c.
Proof. eexists. reflexivity. Qed.

(** C104, waves: amplitudes have no default, without them a null pointer is used. *)
Theorem c104_wave_amplitudes_needed :
  forall (V : Type) (zero one : V) (add mul : V -> V -> V) (sine : list V) (rate : Z) (c c1 : wave_config V) (channels n : nat) (out : list (frame V)),
  wave_defaults V zero one sine rate = Some c -> 0 < n -> wave_prepare V c = Some c1 -> wave_generate V add mul channels 0 n out c1 = None.
Proof. exact wave_default_silent. Qed.
Print Assumptions c104_wave_amplitudes_needed.
Example c104_wave_amplitudes_instance : exists c c1, wave_defaults Z 0%Z 1%Z [0; 5; 7; 5; 0]%Z 5 = Some c /\ wave_prepare Z c = Some c1.
Proof. eexists _, _. split; reflexivity. Qed.

(** C104 (partial), noise: every configuration of sp_noise_event_config_new_n, with amplitudes set for the first channel, adds the same noise to both channels:
    white noise in the band from zero to half the rate with transitions of 0.08 of the rate. Missing: rates from 131072 on, see the refutation; rates below 25,
    for which the transition is below two hertz (see C82). *)
Theorem c104_noise_partial :
  forall (V R : Type) (zero one : V) (add mul : V -> V -> V) (limit : V -> V) (draw : R -> V * R) (ir_f : nat -> list Z -> option (list V))
    (pack : Z -> Z -> Z -> Z -> bool -> list Z) (args_size : nat) (junk : nat -> list V) (junkb : nat -> list Z),
  (forall a b c d e, length (pack a b c d e) = args_size) -> (forall n, length (junk n) = n) -> (forall n, length (junkb n) = n) ->
  forall (rate : Z) (random r : R) (count : nat) (block : list (nconfig V R)) (k : nat) (a ir : list V) (duration : nat) (calls : list (nat * list (list V))),
  (25 <= rate < 131072)%Z -> length block = count -> k < count -> 0 < duration <= length a ->
  ir_f 0 (pack 0 (rate / 2) (rate * 8 / 100) (rate * 8 / 100) false)%Z = Some ir -> 0 < length ir ->
  Forall (stereo_call V) calls -> list_sum (map fst calls) <= duration -> Forall (fun call => fst call <= Z.to_nat (4 * rate)) calls ->
  exists configs c, config_new_n (noise_defaults V R zero one random rate) count (Some block) = Some (Some configs) /\ length configs = count /\ nth_error configs k = Some c /\
    exists c1 outs c2, prepare V R zero add mul draw ir_f pack junk junkb rate duration r (noise_with V R a c) = Some (Some c1) /\
      noise_run V R zero add mul limit draw ir_f pack junk junkb 0 calls c1 = Some (outs, c2) /\
      heard_on_both V add (fun t => limit (mul (mul one (nth t a zero)) (noise_signal V R zero add mul draw ir (response_length rate (rate * 8 / 100)) r t))) 0 calls outs.
Proof. exact noise_default_sounds. Qed.
Print Assumptions c104_noise_partial.
Example c104_noise_instance :
  Forall (stereo_call Z) (map zeros2 [3; 5]) /\ demo_nir 0 (demo_pack 0 (30 / 2) (30 * 8 / 100) (30 * 8 / 100) false) = Some [1; 0; 15]%Z /\
  (c <- noise_defaults Z Z 0%Z 1%Z 0%Z 30 ;; c1 <- demo_prepare 30 8 5%Z (noise_with Z Z ones c) ;; c1 <- c1 ;; '(outs, _) <- demo_noise 0 (map zeros2 [3; 5]) c1 ;; Some outs) =
  Some [[[-1; -9; -9]; [-1; -9; -9]]; [[-9; 2; 9; 9; 0]; [-9; 2; 9; 9; 0]]]%Z.
Proof.
  split; [|split; [reflexivity|vm_compute; reflexivity]].
  repeat (apply Forall_cons || apply Forall_nil); (split; [cbn; lia|]); eexists _, _, _; (split; [reflexivity|]); cbn; lia.
Qed.

(** C104 refuted, noise: for every rate from 131072 on the band of the default configuration ends below half the rate; from 819200 on making the
    configuration is an undefined conversion. *)
Theorem c104_noise_rate_refuted :
  forall (V R : Type) (zero one : V) (random : R) (rate : Z),
  ((131072 <= rate < 819200)%Z ->
    exists c, noise_defaults V R zero one random rate = Some c /\ length (nc_channels V R c) = 2 /\ Forall (fun cc => n_fmod V cc = None /\ n_wmod V cc = None /\ (n_frq V cc + n_wdt V cc < rate / 2)%Z) (nc_channels V R c)) /\
  ((819200 <= rate)%Z -> noise_defaults V R zero one random rate = None).
Proof.
  intros. split; [apply noise_default_narrow|]. intros h. apply noise_defaults_none. apply Z.div_le_lower_bound; lia.
Qed.
Print Assumptions c104_noise_rate_refuted.
Example c104_noise_rate_instance : option_map (fun c => map (n_wdt Z) (nc_channels Z Z c)) (noise_defaults Z Z 0%Z 1%Z 0%Z 192000) = Some [30464; 30464]%Z.
Proof. reflexivity. Qed.
