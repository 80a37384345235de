(** What a noise event is to produce. *)
From Verif Require Import Base ConvolveSpec MiscModel NoiseModel.
Open Scope nat_scope.

(** the sizes of the parts in which [n] samples are processed: full parts of [resolution] and the rest *)
Definition parts (resolution n : nat) : list nat :=
  let r := Nat.min resolution n in repeat r (n / r) ++ (if n mod r =? 0 then [] else [n mod r]).
(** the parts of consecutive calls *)
Definition all_parts (resolution : nat) (sizes : list nat) : list nat := concat (map (parts resolution) sizes).

(** sample [j] of channel [ch] of a block *)
Definition sample_at {V : Type} (block : list (list V)) (ch j : nat) : option V := row <- nth_error block ch ;; nth_error row j.

Section Spec.
Variables (V R : Type).
Variables (zero : V) (add mul : V -> V -> V) (limit : V -> V).
Variable draw : R -> V * R.
Variable ir_f : nat -> list Z -> option (list V).
Variable pack : Z -> Z -> Z -> Z -> bool -> list Z.
Notation nchannel := (nchannel V).

(** the next [n] numbers of the random source, and its state behind them *)
Fixpoint numbers (n : nat) (r : R) : list V * R :=
  match n with O => ([], r) | S n => let '(x, r) := draw r in let '(l, r) := numbers n r in (x :: l, r) end.
(** white noise: [n] numbers from position [s] of the source [r] *)
Definition white (r : R) (s n : nat) : list V := fst (numbers n (snd (numbers s r))).

(** the value of an optional array at index [i], or the fixed value *)
Definition at_time (array : option (list Z)) (fixed : Z) (i : nat) : Z := match array with Some a => nth i a 0%Z | None => fixed end.
(** the impulse response for the channel's frequency band at event time [i] *)
Definition response (reject : bool) (cc : nchannel) (i : nat) : list V :=
  let f := u16 (at_time (n_fmod V cc) (n_frq V cc) i) in
  let w := at_time (n_wmod V cc) (n_wdt V cc) i in
  match ir_f 0 (pack f (u32 (f + w)) (n_trnl V cc) (n_trnh V cc) reject) with Some ir => ir | None => [] end.

(** ** effective channel configuration *)
(** length of the impulse response of a low or high pass with transition [trn] in hertz: four cycles of the transition, rounded up to an odd number *)
Definition response_length (rate trn : Z) : nat :=
  let n := Z.to_nat ((4 * rate + trn - 1) / trn) in if Nat.even n then n + 1 else n.
(** the channel has filter settings of its own *)
Definition own_filter (cc : nchannel) : bool :=
  n_use V cc && (negb (n_frq V cc =? 0)%Z || negb (n_wdt V cc =? 0)%Z || is_some (n_fmod V cc) || is_some (n_wmod V cc) || negb (n_trnl V cc =? 0)%Z || negb (n_trnh V cc =? 0)%Z).
(** settings left out are those of the first channel [c0]; all of them except the output channel if the channel is marked as unused *)
Definition inherit (c0 cc : nchannel) : nchannel :=
  if n_use V cc then
    {| n_amp := n_amp V cc; n_amod := match n_amod V cc with Some a => Some a | None => n_amod V c0 end; n_channel := n_channel V cc; n_state := n_state V cc; n_heap := n_heap V cc;
       n_frq := n_frq V cc;
       n_fmod := if own_filter cc then match n_fmod V cc with Some a => Some a | None => n_fmod V c0 end else n_fmod V cc;
       n_wdt := if own_filter cc && (n_wdt V cc =? 0)%Z then n_wdt V c0 else n_wdt V cc;
       n_wmod := if own_filter cc then match n_wmod V cc with Some a => Some a | None => n_wmod V c0 end else n_wmod V cc;
       n_trnl := if own_filter cc && (n_trnl V cc =? 0)%Z then n_trnl V c0 else n_trnl V cc;
       n_trnh := if own_filter cc && (n_trnh V cc =? 0)%Z then n_trnh V c0 else n_trnh V cc; n_use := true |}
  else
    {| n_amp := n_amp V c0; n_amod := n_amod V c0; n_channel := n_channel V cc; n_state := n_state V c0; n_heap := n_heap V c0; n_frq := n_frq V c0; n_fmod := n_fmod V c0;
       n_wdt := n_wdt V c0; n_wmod := n_wmod V c0; n_trnl := n_trnl V c0; n_trnh := n_trnh V c0; n_use := n_use V c0 |}.
(** the length of the impulse response of a channel *)
Definition channel_length (rate : Z) (cc : nchannel) : nat := response_length rate (Z.min (n_trnl V cc) (n_trnh V cc)).
(** all channels of an event as they sound, with the length of their filter if they have one *)
Definition event_channels (rate : Z) (c : nconfig V R) : list (nchannel * option nat) :=
  match nc_channels V R c with
  | [] => []
  | c0 :: l => (c0, Some (channel_length rate c0)) :: map (fun cc => (inherit c0 cc, if own_filter cc then Some (channel_length rate (inherit c0 cc)) else None)) l
  end.
(** the filter settings change over time *)
Definition modulated (c : nconfig V R) : bool := 
  match nc_channels V R c with
  | [] => false
  | c0 :: l => is_some (n_fmod V c0) || is_some (n_wmod V c0) || existsb (fun cc => own_filter cc && (is_some (n_fmod V cc) || is_some (n_wmod V cc))) l
  end.

(** the white noise a filter starts with, for all channels that have their own filter, in order; and the source behind it *)
Fixpoint lead_ins (l : list (nchannel * option nat)) (r : R) : list (option (list V)) * R :=
  match l with
  | [] => ([], r)
  | (_, None) :: l => let '(ls, r) := lead_ins l r in (None :: ls, r)
  | (_, Some n) :: l => let '(x, r) := numbers n r in let '(ls, r) := lead_ins l r in (Some x :: ls, r)
  end.

(** the filtered signal of a channel when the event has been processed in the given parts *)
Fixpoint segments (reject : bool) (cc : nchannel) (r : R) (s : nat) (sizes : list nat) : list (list V * list V) :=
  match sizes with
  | [] => []
  | n :: sizes => (white r s n, response reject cc s) :: segments reject cc r (s + n) sizes
  end.
Definition filtered_parts (reject : bool) (cc : nchannel) (lead_in : list V) (r : R) (sizes : list nat) (t : nat) : V :=
  overlap_add V add mul zero ((lead_in, response reject cc 0) :: segments reject cc r 0 sizes) (length lead_in + t).
(** the same for a response that does not change: the convolution of the lead-in and the white noise. It does not depend on parts *)
Definition filtered (reject : bool) (cc : nchannel) (lead_in : list V) (r : R) (t : nat) : V :=
  conv_sample V add mul zero (lead_in ++ white r 0 (S t)) (response reject cc 0) (length lead_in + t).

(** every channel with its signal: its own one, or the one of the first channel *)
Fixpoint signals (signal : nchannel -> list V -> nat -> V) (first : nat -> V) (l : list (nchannel * option nat)) (leads : list (option (list V)))
  : list (nchannel * (nat -> V)) :=
  match l, leads with
  | (cc, _) :: l, lead :: leads => (cc, match lead with Some x => signal cc x | None => first end) :: signals signal first l leads
  | _, _ => []
  end.
(** sample [t] of block channel [ch], added to what is there: every event channel that goes there, multiplied by its amplitudes and limited *)
Definition mixed (l : list (nchannel * (nat -> V))) (ch t : nat) (x : V) : V :=
  fold_left (fun x '(cc, signal) =>
    if n_channel V cc =? ch then
      match n_amod V cc with
      | Some amod => match nth_error amod t with Some a => add x (limit (mul (mul (n_amp V cc) a) (signal t))) | None => x end
      | None => x
      end
    else x) l x.

(** all channels of an event with their signals, for a random source [r] and the signal of a channel by its lead-in and the source behind all lead-ins *)
Definition event_signals (signal : nchannel -> list V -> R -> nat -> V) (channels : list (nchannel * option nat)) (r : R) : list (nchannel * (nat -> V)) :=
  let '(leads, r1) := lead_ins channels r in
  match channels, leads with
  | (c0, _) :: _, Some lead0 :: _ => signals (fun cc lead => signal cc lead r1) (signal c0 lead0 r1) channels leads
  | _, _ => []
  end.
(** calls for consecutive parts of the event from event time [t], each with a size and an output block: the resulting blocks [outs] have the same form,
    and the signals of the event times have been added to the first samples *)
Fixpoint sounds (l : list (nchannel * (nat -> V))) (t : nat) (calls : list (nat * list (list V))) (outs : list (list (list V))) : Prop :=
  match calls, outs with
  | [], [] => True
  | (n, out) :: calls, out' :: outs =>
    map (@length V) out' = map (@length V) out /\
    (forall ch j x, sample_at out ch j = Some x -> sample_at out' ch j = Some (if j <? n then mixed l ch (t + j) x else x)) /\
    sounds l (t + n) calls outs
  | _, _ => False
  end.

(** ** what a configuration needs *)
(** an optional array has at least [n] elements, if given *)
Definition reaches {A : Type} (n : nat) (a : option (list A)) : Prop := match a with Some l => n <= length l | None => True end.
Definition playable_channel (reject : bool) (duration : nat) (x : nchannel * option nat) : Prop :=
  let cc := fst x in
  n_state V cc = None /\
  (exists amod, n_amod V cc = Some amod /\ duration <= length amod) /\
  (snd x <> None -> (2 <= n_trnl V cc)%Z /\ (2 <= n_trnh V cc)%Z /\ reaches duration (n_fmod V cc) /\ reaches duration (n_wmod V cc) /\
    exists m, 0 < m /\ forall t, t < duration -> length (response reject cc t) = m).
(** a new event of [duration] samples at a sample rate *)
Definition playable (rate : Z) (duration : nat) (c : nconfig V R) : Prop :=
  (0 < rate)%Z /\ (4 * rate < 2 ^ 32)%Z /\ 0 < duration /\
  (exists c0 l, nc_channels V R c = c0 :: l /\ n_use V c0 = true) /\
  Forall (playable_channel (nc_reject V R c) duration) (event_channels rate c).
(** how often the filter settings are updated *)
Definition update_interval (duration : nat) (c : nconfig V R) : nat := if modulated c then nc_resolution V R c else duration.
(** a call for [n] samples with a block of sufficient size for all channels *)
Definition call_fits (channels : list (nchannel * option nat)) (call : nat * list (list V)) : Prop :=
  0 < fst call /\ Forall (fun x => exists row, nth_error (snd call) (n_channel V (fst x)) = Some row /\ fst call <= length row) channels.

(** what is left out: an array that is not given, a number that is zero *)
Definition array_default {A : Type} (own first result : option (list A)) : Prop := (own <> None -> result = own) /\ (own = None -> result = first).
Definition number_default (own first result : Z) : Prop := (own <> 0%Z -> result = own) /\ (own = 0%Z -> result = first).
(** [cc'] is the channel [cc] with defaults from the first channel [c0], the frequency aside *)
Definition with_defaults (c0 cc cc' : nchannel) : Prop :=
  n_channel V cc' = n_channel V cc /\
  (n_use V cc = true -> n_amp V cc' = n_amp V cc /\ array_default (n_amod V cc) (n_amod V c0) (n_amod V cc') /\
    (own_filter cc = true -> array_default (n_fmod V cc) (n_fmod V c0) (n_fmod V cc') /\ array_default (n_wmod V cc) (n_wmod V c0) (n_wmod V cc') /\
      number_default (n_wdt V cc) (n_wdt V c0) (n_wdt V cc') /\ number_default (n_trnl V cc) (n_trnl V c0) (n_trnl V cc') /\ number_default (n_trnh V cc) (n_trnh V c0) (n_trnh V cc'))) /\
  (n_use V cc = false -> n_amp V cc' = n_amp V c0 /\ n_amod V cc' = n_amod V c0 /\ n_frq V cc' = n_frq V c0 /\ n_fmod V cc' = n_fmod V c0 /\ n_wdt V cc' = n_wdt V c0 /\
    n_wmod V cc' = n_wmod V c0 /\ n_trnl V cc' = n_trnl V c0 /\ n_trnh V cc' = n_trnh V c0).
End Spec.
