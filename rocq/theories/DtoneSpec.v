(** A wave event from its configuration to the samples of a file *)
From Coq Require Import ZArith Reals List Arith.
From Verif Require Import Base SeqModel SeqRenderSpec EvModel DblModel DblSpec DwaveSpec.
Import ListNotations.
Open Scope R_scope.

(** the exact sines that event [e], whose configuration after preparing is [c], adds at time [t] to channel [ch] *)
Definition tone (period : nat) (e : event (wave_config f64)) (c : wave_config f64) (t ch : nat) : list R :=
  if active _ e t then map (fun cc => exact_sine period cc (t - ev_start _ e)) (filter (fun cc => channel _ cc =? ch)%nat (firstn (channel_count _ c) (channel_config _ c))) else [].
