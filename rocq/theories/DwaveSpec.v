(** Mixes of wave events with doubles *)
From Coq Require Import ZArith Reals List Arith.
From Verif Require Import Base SeqModel SeqRenderSpec EvModel EvSpec DblModel DblSpec.
Import ListNotations.
Open Scope R_scope.

(** the exact sine of channel configuration [cc] at sample [i] of its event. [period]: the number of samples for one cycle at frequency one *)
Definition exact_sine (period : nat) (cc : wave_channel f64) (i : nat) : R :=
  real (amp _ cc) * real (nth i (match amod _ cc with Some l => l | None => [] end) fzero) *
  sin (2 * PI * IZR (phs _ cc + frequency_sum _ cc 0 i + modulation (pmod _ cc) i) / INR period).
(** all sines that sound at time [t] in channel [ch] *)
Definition sounding (period : nat) (events : list (event (wave_config f64))) (t ch : nat) : list R :=
  flat_map (fun e => if active _ e t then
    map (fun cc => exact_sine period cc (t - ev_start _ e)) (filter (fun cc => channel _ cc =? ch)%nat (firstn (channel_count _ (ev_data _ e)) (channel_config _ (ev_data _ e)))) else []) events.
Definition total (l : list R) : R := fold_right Rplus 0 l.
(** amplitudes are finite and at most one *)
Definition unit_amplitudes (c : wave_config f64) : Prop :=
  Forall (fun cc => finite (amp _ cc) /\ Rabs (real (amp _ cc)) <= 1 /\ forall l, amod _ cc = Some l -> Forall (fun x => finite x /\ Rabs (real x) <= 1) l) (firstn (channel_count _ c) (channel_config _ c)).
