(** Default configurations of wave and noise events, /repo/source/c-precompiled/sph-sp/sequencer.c:467-490 and 554-577 (cited as sequencer.c).
    - Samples are a type with zero and one. The rate is sp_rate, a 32 bit unsigned number.
    - sp_channel_count_limit is 2, sph-sp.h. *)
From Verif Require Import Base FilterModel EvModel NoiseModel.
Open Scope nat_scope.

Definition channel_limit : nat := 2.
Section Conf.
Variables (V R : Type) (zero one : V).

(** sp_wave_event_channel_config_t with all bytes zero *)
Definition wave_channel_zero : wave_channel V :=
  {| amod := None; amp := zero; channel := 0; fmod := None; frq := 0; phs := 0; pmod := None; use := false |}.
Definition wave_set_use (cc : wave_channel V) : wave_channel V :=
  {| amod := amod V cc; amp := amp V cc; channel := channel V cc; fmod := fmod V cc; frq := frq V cc; phs := phs V cc; pmod := pmod V cc; use := true |}.
Definition wave_set_channel (cc : wave_channel V) (i : nat) : wave_channel V :=
  {| amod := amod V cc; amp := one; channel := i; fmod := fmod V cc; frq := frq V cc; phs := phs V cc; pmod := pmod V cc; use := use V cc |}.
(** sp_wave_event_config_defaults, sequencer.c:467-478. [sine]: sp_sine_table *)
Definition wave_defaults (sine : list V) (rate : Z) : option (wave_config V) :=
  let l := repeat wave_channel_zero channel_limit in
  first <- aget l 0 ;;
  l <- aset l 0 (wave_set_use first) ;;
  l <- for_ 0 channel_limit (fun i l => cc <- aget l i ;; aset l i (wave_set_channel cc i)) l ;;
  Some {| wvf := sine; wvf_size := rate; channel_count := channel_limit; channel_config := l |}.

(** sp_noise_event_channel_config_t with all bytes zero. [n_heap]: no objects, see NoiseModel.v *)
Definition noise_channel_zero : nchannel V :=
  {| n_amp := zero; n_amod := None; n_channel := 0; n_state := None; n_heap := {| cells := []; attempts := 0 |}; n_frq := 0; n_fmod := None; n_wdt := 0; n_wmod := None;
     n_trnl := 0; n_trnh := 0; n_use := false |}.
Definition noise_set_use (cc : nchannel V) : nchannel V :=
  {| n_amp := n_amp V cc; n_amod := n_amod V cc; n_channel := n_channel V cc; n_state := n_state V cc; n_heap := n_heap V cc; n_frq := n_frq V cc; n_fmod := n_fmod V cc;
     n_wdt := n_wdt V cc; n_wmod := n_wmod V cc; n_trnl := n_trnl V cc; n_trnh := n_trnh V cc; n_use := true |}.
Definition noise_set_channel (cc : nchannel V) (i : nat) (wdt trn : Z) : nchannel V :=
  {| n_amp := one; n_amod := n_amod V cc; n_channel := i; n_state := n_state V cc; n_heap := n_heap V cc; n_frq := n_frq V cc; n_fmod := n_fmod V cc;
     n_wdt := wdt; n_wmod := n_wmod V cc; n_trnl := trn; n_trnh := trn; n_use := n_use V cc |}.
(** conversion of a double that is not negative to sp_frq_t (uint16_t): undefined if the integral part is not representable *)
Definition to_frq (x : Z) : option Z := if (x <? 65536)%Z then Some x else None.
(** sp_noise_event_config_defaults, sequencer.c:554-567. sp_max_frq is sp_rate / 2 (main.h:25), converted from uint32_t to uint16_t. sp_rate * 0.08 in
    exact arithmetic. sp_default_resolution: sequencer.h:4. [random]: the zeroed random state. *)
Definition noise_defaults (random : R) (rate : Z) : option (nconfig V R) :=
  let l := repeat noise_channel_zero channel_limit in
  first <- aget l 0 ;;
  l <- aset l 0 (noise_set_use first) ;;
  l <- for_ 0 channel_limit (fun i l => cc <- aget l i ;; trn <- to_frq (rate * 8 / 100) ;; aset l i (noise_set_channel cc i (u16 (rate / 2)) trn)) l ;;
  Some {| nc_reject := false; nc_random := random; nc_resolution := Z.to_nat (if (rate <? 10000)%Z then rate else rate / 1000); nc_temp := [None; None; None];
          nc_channels := l |}.

(** sp_wave_event_config_new_n, sequencer.c:481-490, and sp_noise_event_config_new_n, 568-577. [block]: the elements that malloc returned, not initialised;
    [None] if it failed. Result: [None] inside for a failure status *)
Definition config_new_n {C : Type} (defaults : option C) (count : nat) (block : option (list C)) : option (option (list C)) :=
  d <- defaults ;;
  match block with
  | None => Some None
  | Some block => l <- for_ 0 count (fun i l => aset l i d) block ;; Some (Some l)
  end.
End Conf.
