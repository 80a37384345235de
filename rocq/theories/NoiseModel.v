(** Noise events, /repo/source/c-precompiled/sph-sp/sequencer.c:554-731 (cited as sequencer.c).
    - Samples are a type [V] with operations without laws. [limit x] is sp_inline_limit(x, -1, 1).
    - [draw] is one number of the random source and its next state (sph_random_f64_1to1 in the code, RandModel.v).
    - [pack] gives the bytes of the argument array that sp_windowed_sinc_bp_br (filter.c:287-303) builds from hertz values; the
      division by the sample rate (sp_hz_to_factor) is part of it. [ir_f 0] is sp_windowed_sinc_bp_br_ir_f.
    - Allocation succeeds. Every channel's filter has a heap of its own: by C06 a filter uses only objects of its own state.
    - Filter output buffers: sp_convolve writes only the first samples of the buffer (C03), it gets that part. *)
From Verif Require Import Base ConvolveModel FilterModel MiscModel RandModel EvModel.
Open Scope nat_scope.

Definition u16 (x : Z) : Z := (x mod 65536)%Z.
(** sp_windowed_sinc_lp_hp_ir_length(sp_hz_to_factor(trn)), /repo/source/c-precompiled/sph-sp/filter.c:110-117, exact arithmetic. A transition of
    zero divides by zero and converts infinity. *)
Definition ir_length (rate trn : Z) : option nat :=
  if (trn =? 0)%Z then None
  else
    let a := Z.to_nat ((4 * rate + trn - 1) / trn) in
    Some (if Nat.even a then a + 1 else a).

Section Noise.
Variables (V R : Type).
Variables (zero : V) (add mul : V -> V -> V) (limit : V -> V).
Variable draw : R -> V * R.
Variable ir_f : nat -> list Z -> option (list V).
Variable pack : Z -> Z -> Z -> Z -> bool -> list Z.
Variable junk : nat -> list V.
Variable junkb : nat -> list Z.

(** sp_noise_event_channel_config_t, sequencer.h:191-203. Arrays are [None] if the pointer is null. [n_heap]: objects of the filter state *)
Record nchannel := {
  n_amp : V; n_amod : option (list V); n_channel : nat; n_state : option nat; n_heap : heap V; n_frq : Z; n_fmod : option (list Z);
  n_wdt : Z; n_wmod : option (list Z); n_trnl : Z; n_trnh : Z; n_use : bool
}.
(** sp_noise_event_config_t, sequencer.h:204-211. [nc_channels]: the first channel_count elements of channel_config. [nc_temp]: the three
    buffers, [None] if not allocated *)
Record nconfig := {
  nc_reject : bool; nc_random : R; nc_resolution : nat; nc_temp : list (option (list V)); nc_channels : list nchannel
}.
Definition set_filter (cc : nchannel) (st : option nat) (h : heap V) : nchannel :=
  {| n_amp := n_amp cc; n_amod := n_amod cc; n_channel := n_channel cc; n_state := st; n_heap := h; n_frq := n_frq cc; n_fmod := n_fmod cc;
     n_wdt := n_wdt cc; n_wmod := n_wmod cc; n_trnl := n_trnl cc; n_trnh := n_trnh cc; n_use := n_use cc |}.

Definition get_temp (temps : list (option (list V))) (k : nat) : option (list V) := t <- aget temps k ;; t.
(** sp_samples_random_primitive(&c->random_state, size, *c->temp) *)
Definition fill_noise (random : R) (n : nat) (temps : list (option (list V))) : option (R * list (option (list V))) :=
  t <- get_temp temps 0 ;;
  '(t, random) <- random_array (fun r => Some (draw r)) random n t ;;
  temps <- aset temps 0 (Some t) ;;
  Some (random, temps).
(** the filter arguments at event time [i], sequencer.c:584-585 and 718-719. frqn is a sp_frq_t, the sum with wmod or wdt is unsigned 32 bit *)
Definition filter_args (reject : bool) (cc : nchannel) (i : nat) : option (list Z) :=
  f <- optional_get (n_fmod cc) (n_frq cc) i ;;
  let frqn := u16 f in
  w <- optional_get (n_wmod cc) (n_wdt cc) i ;;
  Some (pack frqn (u32 (frqn + w)) (n_trnl cc) (n_trnh cc) reject).
(** sp_windowed_sinc_bp_br, filter.c:287-303, on the first [n] samples of temp[0] with the result in temp[k] *)
Definition apply_filter (reject : bool) (cc : nchannel) (i n k : nat) (temps : list (option (list V)))
  : option (result unit * nchannel * list (option (list V))) :=
  input <- get_temp temps 0 ;;
  input <- slice input 0 n ;;
  args <- filter_args reject cc i ;;
  buffer <- get_temp temps k ;;
  out <- slice buffer 0 n ;;
  '(r, out, st, h) <- convolution_filter V zero add mul ir_f (fun _ => true) junk junkb input 0 args (length args) (n_state cc) out (n_heap cc) ;;
  buffer <- blit out 0 buffer 0 n ;;
  temps <- aset temps k (Some buffer) ;;
  Some (r, set_filter cc st h, temps).
(** sp_noise_event_filter_state, sequencer.c:581-586 *)
Definition filter_state (reject : bool) (cc : nchannel) (n : nat) (random : R) (temps : list (option (list V)))
  : option (result unit * nchannel * R * list (option (list V))) :=
  '(random, temps) <- fill_noise random n temps ;;
  '(r, cc, temps) <- apply_filter reject cc 0 n 1 temps ;;
  Some (r, cc, random, temps).

(** *** sp_noise_event_prepare, sequencer.c:608-702 *)
Definition is_some {A} (x : option A) : bool := match x with Some _ => true | None => false end.
Definition or_else {A} (x y : option A) : option A := match x with Some _ => x | None => y end.
Definition nonzero (x : Z) : bool := negb (x =? 0)%Z.
(** the body of the loop for the channels after the first, 638-674. [c0]: the first channel. Result: the channel, its ir_lengths element
    ([None] is zero), whether it has modulation of its own *)
Definition prepare_channel (rate : Z) (c0 cc : nchannel) : option (nchannel * option nat * bool) :=
  if n_use cc then
    if nonzero (n_frq cc) || nonzero (n_wdt cc) || is_some (n_fmod cc) || is_some (n_wmod cc) || nonzero (n_trnl cc) || nonzero (n_trnh cc) then
      let cc' := {| n_amp := n_amp cc; n_amod := or_else (n_amod cc) (n_amod c0); n_channel := n_channel cc; n_state := n_state cc; n_heap := n_heap cc;
        n_frq := n_frq cc; n_fmod := or_else (n_fmod cc) (n_fmod c0);
        n_wdt := if nonzero (n_wdt cc) then n_wdt cc else n_wdt c0; n_wmod := or_else (n_wmod cc) (n_wmod c0);
        n_trnl := if nonzero (n_trnl cc) then n_trnl cc else n_trnl c0; n_trnh := if nonzero (n_trnh cc) then n_trnh cc else n_trnh c0;
        n_use := n_use cc |} in
      len <- ir_length rate (Z.min (n_trnl cc') (n_trnh cc')) ;;
      Some (cc', Some len, is_some (n_fmod cc) || is_some (n_wmod cc))
    else
      Some ({| n_amp := n_amp cc; n_amod := or_else (n_amod cc) (n_amod c0); n_channel := n_channel cc; n_state := n_state cc; n_heap := n_heap cc;
        n_frq := n_frq cc; n_fmod := n_fmod cc; n_wdt := n_wdt cc; n_wmod := n_wmod cc; n_trnl := n_trnl cc; n_trnh := n_trnh cc; n_use := n_use cc |}, None, false)
  else
    Some ({| n_amp := n_amp c0; n_amod := n_amod c0; n_channel := n_channel cc; n_state := n_state c0; n_heap := n_heap c0; n_frq := n_frq c0; n_fmod := n_fmod c0;
        n_wdt := n_wdt c0; n_wmod := n_wmod c0; n_trnl := n_trnl c0; n_trnh := n_trnh c0; n_use := n_use c0 |}, None, false).
Fixpoint prepare_channels (rate : Z) (c0 : nchannel) (l : list nchannel) : option (list (nchannel * option nat) * bool) :=
  match l with
  | [] => Some ([], false)
  | cc :: l => '(cc, len, m) <- prepare_channel rate c0 cc ;; '(r, ms) <- prepare_channels rate c0 l ;; Some ((cc, len) :: r, m || ms)
  end.
(** the loop that initialises the filters, 682-694. [false]: failure status *)
Fixpoint init_filters (reject : bool) (l : list (nchannel * option nat)) (random : R) (temps : list (option (list V)))
  : option (list nchannel * R * list (option (list V)) * bool) :=
  match l with
  | [] => Some ([], random, temps, true)
  | (cc, None) :: l => '(r, random, temps, ok) <- init_filters reject l random temps ;; Some (cc :: r, random, temps, ok)
  | (cc, Some n) :: l =>
    '(s, cc, random, temps) <- filter_state reject cc n random temps ;;
    match s with
    | Fail => Some (cc :: map fst l, random, temps, false)
    | Ok _ => '(r, random, temps, ok) <- init_filters reject l random temps ;; Some (cc :: r, random, temps, ok)
    end
  end.
Definition longest (l : list (nchannel * option nat)) : nat :=
  fold_left (fun m x => match snd x with Some n => if m <? n then n else m | None => m end) l 0.
(** [random]: sp_random_state_new of the next number of the global random state. The first channel exists. [duration]: event end - start.
    Result: configuration, [None] for a failure status. What a failing call releases is not modelled. *)
Definition prepare (rate : Z) (duration : nat) (random : R) (c : nconfig) : option (option nconfig) :=
  match nc_channels c with
  | [] => None
  | c0 :: l =>
    len0 <- ir_length rate (Z.min (n_trnl c0) (n_trnh c0)) ;;
    if negb (is_some (n_amod c0)) then Some None
    else
      '(l, mod_rest) <- prepare_channels rate c0 l ;;
      let filter_mod := is_some (n_fmod c0) || is_some (n_wmod c0) || mod_rest in
      let filter_states := existsb (fun x => is_some (snd x)) l in
      let all := (c0, Some len0) :: l in
      let resolution := if filter_mod then nc_resolution c else duration in
      let temp_length := Nat.min (Nat.max (longest all) resolution) (Z.to_nat (u32 (4 * rate))) in
      let temps := [Some (junk temp_length); Some (junk temp_length); if filter_states then Some (junk temp_length) else None] in
      '(channels, random, temps, ok) <- init_filters (nc_reject c) all random temps ;;
      if (ok : bool) then
        Some (Some {| nc_reject := nc_reject c; nc_random := random; nc_resolution := resolution; nc_temp := temps; nc_channels := channels |})
      else Some None
  end.

(** *** sp_noise_event_generate_block, sequencer.c:703-730 *)
(** the loop over samples, 722-725. [out]: the sample arrays of the block, by channel *)
Definition mix (cc : nchannel) (temp : list V) (duration block_i event_i : nat) (out : list (list V)) : option (list (list V)) :=
  amod <- (if duration =? 0 then Some [] else n_amod cc) ;;
  for_ 0 duration (fun i out =>
    a <- aget amod (event_i + i) ;;
    t <- aget temp i ;;
    row <- aget out (n_channel cc) ;;
    o <- aget row (block_i + i) ;;
    row <- aset row (block_i + i) (add o (limit (mul (mul (n_amp cc) a) t))) ;;
    aset out (n_channel cc) row) out.
(** the loop over channels from the one with index [cci]. [false]: failure status *)
Fixpoint mix_channels (reject : bool) (duration block_i event_i cci : nat) (l : list nchannel) (temps : list (option (list V))) (out : list (list V))
  : option (list nchannel * list (option (list V)) * list (list V) * bool) :=
  match l with
  | [] => Some ([], temps, out, true)
  | cc :: l =>
    let k := if n_use cc && is_some (n_state cc) then if 0 <? cci then 2 else 1 else 1 in
    '(r, cc, temps) <- (if n_use cc && is_some (n_state cc) then apply_filter reject cc event_i duration k temps else Some (Ok tt, cc, temps)) ;;
    match r with
    | Fail => Some (cc :: l, temps, out, false)
    | Ok _ =>
      temp <- get_temp temps k ;;
      out <- mix cc temp duration block_i event_i out ;;
      '(r, temps, out, ok) <- mix_channels reject duration block_i event_i (S cci) l temps out ;;
      Some (cc :: r, temps, out, ok)
    end
  end.
Definition generate_block (duration block_i event_i : nat) (s : nconfig * list (list V)) : option (nconfig * list (list V) * bool) :=
  let '(c, out) := s in
  '(random, temps) <- fill_noise (nc_random c) duration (nc_temp c) ;;
  '(channels, temps, out, ok) <- mix_channels (nc_reject c) duration block_i event_i 0 (nc_channels c) temps out ;;
  Some ({| nc_reject := nc_reject c; nc_random := random; nc_resolution := nc_resolution c; nc_temp := temps; nc_channels := channels |}, out, ok).
(** sp_noise_event_generate, sequencer.c:731 *)
Definition generate (start end_ : nat) (c : nconfig) (out : list (list V)) : option (nconfig * list (list V) * bool) :=
  block_generate (nconfig * list (list V)) generate_block (nc_resolution c) start end_ (c, out).

(** A caller that renders the event in consecutive calls from event time [t]: one output block per call, with the size of the call. Result: the
    blocks *)
Fixpoint noise_run (t : nat) (calls : list (nat * list (list V))) (c : nconfig) : option (list (list (list V)) * nconfig) :=
  match calls with
  | [] => Some ([], c)
  | (n, out) :: calls =>
    '(c, out, ok) <- generate t (t + n) c out ;;
    _ <- need ok ;;
    '(outs, c) <- noise_run (t + n) calls c ;;
    Some (out :: outs, c)
  end.
End Noise.
