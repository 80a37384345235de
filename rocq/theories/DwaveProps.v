(** * C122: mixes of wave events in double precision *)
From Coq Require Import ZArith Reals List Lia Lra.
From Flocq Require Import Core BinarySingleNaN.
From Verif Require Import Base SeqModel SeqSpec SeqLifeSpec SeqRenderSpec EvModel EvSpec DblModel DblSpec DblProofs Dbl2Proofs DfftModel DkerModel DkerSpec DkerProofs Dker3Proofs DwaveSpec DwaveProofs.
Import ListNotations.
Open Scope R_scope.

(** Events that play the table of sp_sine_period, rendered by sp_seq in whatever blocks: each sample is the previous one plus the sum of the exact sines, up to the
    error of the table and two roundings for each sine that sounds, and the roundings of the sums. *)
Theorem c122_mix :
  forall d fcos fsin k junk table channels t blocks (h : heap (wave_config f64)) head L,
  libm_near d fcos fsin -> 0 <= d <= / 1000000 -> (0 < k)%nat -> (Z.of_nat (2 * k) < 2 ^ 32)%Z -> length junk = (2 * k)%nat -> sine_period64 fsin (2 * k) junk = Some table ->
  represents _ h head L -> sorted _ (map snd L) ->
  Forall (fun e => (ev_start _ e <= ev_end _ e /\ t <= ev_start _ e)%nat /\ ev_prepare _ e = false /\ wvf _ (ev_data _ e) = table /\ wave_valid f64 channels (ev_end _ e - ev_start _ e) (ev_data _ e) /\
    wave_small f64 (ev_data _ e) /\ unit_amplitudes (ev_data _ e)) (map snd L) ->
  blocks_exact (EvModel.frame f64) t blocks ->
  exists r, run_blocks (EvModel.frame f64) _ (wave_event_prepare f64) (wave_event_generate f64 fadd fmul channels) t blocks head h = Some r /\ rr_ok _ _ r = true /\
    forall i before, nth_error (concat (map snd blocks)) i = Some before -> exists after, nth_error (concat (rr_outs _ _ r)) i = Some after /\
      forall ch, let s := sounding (2 * k) (map snd L) (t + i) ch in let n := INR (length s) in
        finite (before ch) -> Rabs (real (before ch)) <= IZR (2 ^ 900) -> n * unit_roundoff <= / 2 ->
        finite (after ch) /\ Rabs (real (after ch) - (real (before ch) + total s)) <= n * (d + 19 * unit_roundoff) + 2 * n * unit_roundoff * (Rabs (real (before ch)) + 2 * n).
Proof. exact mix_near. Qed.
Print Assumptions c122_mix.
(** without modulation of frequency and phase, frequency f plays f cycles in as many samples as the table has *)
Theorem c122_frequency : forall period cc i, fmod _ cc = None -> pmod _ cc = None ->
  exact_sine period cc i = real (amp _ cc) * real (nth i (match amod _ cc with Some l => l | None => [] end) fzero) * sin (2 * PI * (IZR (phs _ cc) + IZR (frq _ cc) * INR i) / INR period).
Proof. exact plain_sine. Qed.
Print Assumptions c122_frequency.
(** a tone and its double frequency at the same time, with a table of 8 samples: the second sample of the mix is sin (pi / 4) + sin (pi / 2) *)
Definition one64 : f64 := f_of_Z 1.
Definition demo_part (f : Z) : wave_channel f64 := {| amod := Some [one64; one64; one64; one64]; amp := one64; channel := 0; fmod := None; frq := f; phs := 0; pmod := None; use := true |}.
Definition demo_event (table : list f64) : event (wave_config f64) :=
  {| ev_id := 0; ev_start := 0; ev_end := 4; ev_prepare := false; ev_free := false; ev_data := {| wvf := table; wvf_size := 8; channel_count := 2; channel_config := [demo_part 1; demo_part 2] |} |}.
Example c122_instance :
  exists table r after, sine_period64 sin40 8 (repeat fzero 8) = Some table /\
    run_blocks (EvModel.frame f64) _ (wave_event_prepare f64) (wave_event_generate f64 fadd fmul 1) 0 [(3%nat, repeat (fun _ => fzero) 3)] (Some 0%nat)
      {| nodes := fun p => if Nat.eqb p 0 then Some {| n_previous := None; n_next := None; n_event := demo_event table |} else None; fresh := 1 |} = Some r /\
    nth_error (concat (rr_outs _ _ r)) 1 = Some after /\ Rabs (real (after 0%nat) - (sin (PI / 4) + 1)) <= / 100000.
Proof.
  destruct (table_near (/ 1000000) cos40 sin40 4 (repeat fzero 8) libm40 ltac:(lia) ltac:(lia) eq_refl) as (table & et & lt & _). change (2 * 4)%nat with 8%nat in *.
  destruct (f_of_Z_exact 1 ltac:(lia)) as [f1 e1]. fold one64 in f1, e1.
  destruct (c122_mix (/ 1000000) cos40 sin40 4 (repeat fzero 8) table 1 0 [(3%nat, repeat (fun _ => fzero) 3)]
    {| nodes := fun p => if Nat.eqb p 0 then Some {| n_previous := None; n_next := None; n_event := demo_event table |} else None; fresh := 1 |} (Some 0%nat) [(0%nat, demo_event table)]) as (r & h1 & _ & h2).
  - exact libm40.
  - lra.
  - lia.
  - lia.
  - reflexivity.
  - exact et.
  - split; [cbn; split; [reflexivity|]; eexists; split; reflexivity|]. split; [repeat constructor; cbn; tauto|repeat constructor].
  - cbn. auto.
  - constructor; [|constructor]. cbn [snd demo_event ev_start ev_end ev_prepare ev_data wvf]. split; [lia|]. split; [reflexivity|]. split; [reflexivity|]. split; [|split].
    + unfold wave_valid. cbn. split; [lia|]. split; [rewrite lt; reflexivity|]. split; [split; reflexivity|].
      repeat (constructor; [cbn; split; [lia|]; split; [eexists; split; [reflexivity|cbn; lia]|]; split; [exact I|]; split; [exact I|]; lia|]). constructor.
    + unfold wave_small. cbn. repeat (constructor; [intros i; cbn; split; intro; discriminate|]). constructor.
    + unfold unit_amplitudes. cbn. assert (b1 : finite one64 /\ Rabs (real one64) <= 1) by (split; [exact f1|rewrite e1, Rabs_R1; lra]).
      repeat (constructor; [cbn; split; [exact f1|]; split; [apply b1|]; intros l [= <-]; repeat (constructor; [exact b1|]); constructor|]). constructor.
  - cbn. split; [lia|]. split; [reflexivity|exact I].
  - exists table, r. destruct (h2 1%nat (fun _ => fzero) eq_refl) as (after & ha & hb). exists after. split; [exact et|]. split; [exact h1|]. split; [exact ha|]. specialize (hb 0%nat). cbn zeta in hb.
    assert (es : sounding (2 * 4) (map snd [(0%nat, demo_event table)]) (0 + 1) 0 = [exact_sine 8 (demo_part 1) 1; exact_sine 8 (demo_part 2) 1]) by reflexivity. rewrite es in hb. cbn [length total fold_right INR] in hb.
    rewrite !c122_frequency in hb by reflexivity. cbn [demo_part amp amod phs frq nth] in hb. rewrite e1 in hb. change (real fzero) with 0 in hb. rewrite Rabs_R0 in hb. pose proof u_pos. pose proof u_tiny.
    destruct hb as [_ hb]; [reflexivity|apply IZR_le; lia|lra|]. replace (INR 8) with 8 in hb by (rewrite INR_IZR_INZ; reflexivity). cbn [INR] in hb.
    replace (2 * PI * (0 + 1 * 1) / 8) with (PI / 4) in hb by field. replace (2 * PI * (0 + 2 * 1) / 8) with (PI / 2) in hb by field. rewrite sin_PI2 in hb.
    replace (sin (PI / 4) + 1) with (0 + (1 * 1 * sin (PI / 4) + (1 * 1 * 1 + 0))) by ring. eapply Rle_trans; [exact hb|]. lra.
Qed.
