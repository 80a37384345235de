(** What an event with a default configuration is to sound like. *)
From Verif Require Import Base ConvolveSpec EvModel NoiseModel NoiseSpec.
Open Scope nat_scope.

Section Spec.
Variables (V R : Type).
Variables (zero one : V) (add mul : V -> V -> V) (limit : V -> V).
(** what a user sets before playing: the amplitudes and the frequency of the first channel *)
Definition wave_with (a : list V) (f : Z) (c : wave_config V) : wave_config V :=
  match channel_config V c with
  | [] => c
  | cc :: l => {| wvf := wvf V c; wvf_size := wvf_size V c; channel_count := channel_count V c; channel_config :=
      {| amod := Some a; amp := amp V cc; channel := channel V cc; fmod := fmod V cc; frq := f; phs := phs V cc; pmod := pmod V cc; use := use V cc |} :: l |}
  end.
Definition noise_with (a : list V) (c : nconfig V R) : nconfig V R :=
  match nc_channels V R c with
  | [] => c
  | cc :: l => {| nc_reject := nc_reject V R c; nc_random := nc_random V R c; nc_resolution := nc_resolution V R c; nc_temp := nc_temp V R c; nc_channels :=
      {| n_amp := n_amp V cc; n_amod := Some a; n_channel := n_channel V cc; n_state := n_state V cc; n_heap := n_heap V cc; n_frq := n_frq V cc; n_fmod := n_fmod V cc;
         n_wdt := n_wdt V cc; n_wmod := n_wmod V cc; n_trnl := n_trnl V cc; n_trnh := n_trnh V cc; n_use := n_use V cc |} :: l |}
  end.
(** a sine of [f] hertz at amplitude [a], sample [t]: the table has one period of one second *)
Definition tone (sine a : list V) (f : Z) (t : nat) : V :=
  mul (mul one (nth t a zero)) (nth (Z.to_nat ((f * Z.of_nat t) mod Z.of_nat (length sine))) sine zero).
(** a frame with [x] added to the first two channels *)
Definition on_both (x : V) (before after : nat -> V) : Prop := forall ch, after ch = if ch <? 2 then add (before ch) x else before ch.

(** ** noise *)
(** white noise through the impulse response [ir], after a lead-in of [m] numbers *)
Definition noise_signal (draw : R -> V * R) (ir : list V) (m : nat) (r : R) (t : nat) : V :=
  conv_sample V add mul zero (fst (numbers V R draw m r) ++ white V R draw (snd (numbers V R draw m r)) 0 (S t)) ir (m + t).
(** consecutive calls from event time [t]: the value for the event time has been added to the first samples of the first two channels *)
Fixpoint heard_on_both (value : nat -> V) (t : nat) (calls : list (nat * list (list V))) (outs : list (list (list V))) : Prop :=
  match calls, outs with
  | [], [] => True
  | (n, out) :: calls, out' :: outs =>
    map (@length V) out' = map (@length V) out /\
    (forall ch j x, sample_at out ch j = Some x -> sample_at out' ch j = Some (if (j <? n) && (ch <? 2) then add x (value (t + j)) else x)) /\
    heard_on_both value (t + n) calls outs
  | _, _ => False
  end.
(** a block with two channels that is large enough *)
Definition stereo_call (call : nat * list (list V)) : Prop :=
  0 < fst call /\ exists l r rest, snd call = l :: r :: rest /\ fst call <= length l /\ fst call <= length r.
End Spec.
