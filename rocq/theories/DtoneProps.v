(** * C123: a wave event, rendered to a file in double precision and read back *)
From Coq Require Import ZArith Reals List Lia Lra.
From Flocq Require Import Core BinarySingleNaN.
From Verif Require Import Base SeqModel SeqRenderSpec EvModel EvSpec DblModel DblSpec DblProofs Dbl2Proofs DfftModel DkerModel DkerSpec DkerProofs Dker3Proofs DwaveSpec DwaveProofs DwaveProps
  FileModel FileSpec FileUseSpec RenderModel DfileModel DfileSpec DtoneSpec DtoneProofs.
Import ListNotations.
Open Scope R_scope.

(** Rendering succeeds, the file opens, every sequence of reads gives the frames of the file in order, and each sample of these frames is the exact sum of the sines that sound then,
    up to the error of the library sine and 2^-23 for each of them. Where nothing sounds the sample is exactly zero. *)
Theorem c123_tone :
  forall d fcos fsin k junk table cc (e : event (wave_config f64)) c end_ rate bs (h : heap (wave_config f64)) junkb before reads,
  libm_near d fcos fsin -> 0 <= d <= / 1000000 -> (0 < k)%nat -> (Z.of_nat (2 * k) < 2 ^ 32)%Z -> length junk = (2 * k)%nat -> sine_period64 fsin (2 * k) junk = Some table ->
  (if ev_prepare _ e then wave_prepare f64 (ev_data _ e) = Some c else ev_data _ e = c) ->
  wvf _ c = table -> wave_valid f64 cc (ev_end _ e - ev_start _ e) c -> wave_small f64 c -> unit_amplitudes c -> (channel_count _ c <= 1000)%nat ->
  (ev_start _ e <= ev_end _ e)%nat -> nodes _ h (fresh _ h) = None -> (0 < cc)%nat -> (0 < bs)%nat -> (36 + 4 * Z.of_nat cc * Z.of_nat end_ < 2 ^ 32)%Z ->
  (forall n, length (junkb n) = n) -> f_channels before = cc -> Forall (read_ok f64 cc) reads ->
  exists bytes h' f frames results,
    render_range_file f64 _ fzero narrow32 (wave_event_prepare f64) (wave_event_generate f64 fadd fmul cc) junkb e 0 end_ cc rate bs h = Some (true, bytes, h') /\ (forall q, nodes _ h' q = nodes _ h q) /\
    open_read (Some bytes) before = Some (status_success, f) /\ read_all f64 widen32 f reads = Some results /\
    length frames = end_ /\ reads_expected f64 (fun x => x) cc frames reads results /\
    forall t ch, (t < end_)%nat -> (ch < cc)%nat -> exists x, nth_error (nth t frames []) ch = Some x /\ finite x /\
      Rabs (real x - total (tone (2 * k) e c t ch)) <= INR (length (tone (2 * k) e c t ch)) * (d + bpow radix2 (-23)).
Proof. exact tone_file. Qed.
Print Assumptions c123_tone.
(** the mix of two tones of C122: the second sample read from the file is sin (pi / 4) + sin (pi / 2) *)
Example c123_instance :
  exists table bytes h' f c' x, sine_period64 sin40 8 (repeat fzero 8) = Some table /\
    render_range_file f64 _ fzero narrow32 (wave_event_prepare f64) (wave_event_generate f64 fadd fmul 1) (fun n => repeat 0%Z n) (demo_event table) 0 3 1 48000 2
      {| nodes := fun _ => None; fresh := 0 |} = Some (true, bytes, h') /\
    open_read (Some bytes) {| f_stream := {| content := []; position := 0; at_end := false |}; f_data_size := 0; f_channels := 1 |} = Some (status_success, f) /\
    read_all f64 widen32 f [(3%nat, [repeat fzero 3])] = Some [(status_success, [c'])] /\ nth_error c' 1 = Some x /\ Rabs (real x - (sin (PI / 4) + 1)) <= / 100000.
Proof.
  destruct (table_near (/ 1000000) cos40 sin40 4 (repeat fzero 8) libm40 ltac:(lia) ltac:(lia) eq_refl) as (table & et & lt & _). change (2 * 4)%nat with 8%nat in *.
  destruct (f_of_Z_exact 1 ltac:(lia)) as [f1 e1]. fold one64 in f1, e1.
  destruct (c123_tone (/ 1000000) cos40 sin40 4 (repeat fzero 8) table 1 (demo_event table) (ev_data _ (demo_event table)) 3 48000 2 {| nodes := fun _ => None; fresh := 0 |} (fun n => repeat 0%Z n)
    {| f_stream := {| content := []; position := 0; at_end := false |}; f_data_size := 0; f_channels := 1 |} [(3%nat, [repeat fzero 3])]) as (bytes & h' & f & frames & results & h1 & _ & h2 & h3 & h4 & h5 & h6).
  - exact libm40.
  - lra.
  - lia.
  - lia.
  - reflexivity.
  - exact et.
  - reflexivity.
  - reflexivity.
  - unfold wave_valid. cbn. split; [lia|]. split; [rewrite lt; reflexivity|]. split; [split; reflexivity|].
    repeat (constructor; [cbn; split; [lia|]; split; [eexists; split; [reflexivity|cbn; lia]|]; split; [exact I|]; split; [exact I|]; lia|]). constructor.
  - unfold wave_small. cbn. repeat (constructor; [intros i; cbn; split; intro; discriminate|]). constructor.
  - unfold unit_amplitudes. cbn. assert (b1 : finite one64 /\ Rabs (real one64) <= 1) by (split; [exact f1|rewrite e1, Rabs_R1; lra]).
    repeat (constructor; [cbn; split; [exact f1|]; split; [apply b1|]; intros l [= <-]; repeat (constructor; [exact b1|]); constructor|]). constructor.
  - apply (Nat.le_trans _ 2); [apply le_n|lia].
  - cbn. lia.
  - reflexivity.
  - lia.
  - lia.
  - lia.
  - intros n. apply repeat_length.
  - reflexivity.
  - constructor; [|constructor]. unfold read_ok. cbn [fst snd length]. split; [lia|]. split; [|unfold Base.two32; lia]. intros [|j] c hj hc; [|lia]. injection hc as <-. cbn. lia.
  - destruct results as [|[st out] [|? ?]]; try (cbn [reads_expected] in h5; tauto).
    cbn [reads_expected] in h5. destruct h5 as (r1 & r2 & r3 & _). rewrite h4 in r1, r3. cbn in r1. destruct (r3 0%nat _ eq_refl) as (c' & g1 & _ & g2). destruct out as [|o [|? ?]]; try discriminate. injection g1 as ->.
    specialize (g2 1%nat). cbn [Nat.ltb Nat.leb andb] in g2.
    destruct (h6 1%nat 0%nat ltac:(lia) ltac:(lia)) as (x & k1 & k2 & k3). destruct frames as [|fr0 [|fr1 frames]]; try discriminate. cbn [nth] in k1. 
    assert (g3 : nth_error c' 1 = Some x) by (rewrite g2; destruct fr1; [discriminate|]; exact k1).
    exists table, bytes, h', f, c', x. split; [exact et|]. split; [exact h1|]. split; [exact h2|]. split; [rewrite h3, r1; reflexivity|]. split; [exact g3|].
    assert (es : tone (2 * 4) (demo_event table) (ev_data _ (demo_event table)) 1 0 = [exact_sine 8 (demo_part 1) 1; exact_sine 8 (demo_part 2) 1]) by reflexivity. rewrite es in k3. cbn [length total fold_right INR] in k3.
    rewrite !c122_frequency in k3 by reflexivity. cbn [demo_part amp amod phs frq nth] in k3. rewrite e1 in k3. replace (INR 8) with 8 in k3 by (rewrite INR_IZR_INZ; reflexivity). cbn [INR] in k3.
    replace (2 * PI * (0 + 1 * 1) / 8) with (PI / 4) in k3 by field. replace (2 * PI * (0 + 2 * 1) / 8) with (PI / 2) in k3 by field. rewrite sin_PI2 in k3.
    replace (sin (PI / 4) + 1) with (1 * 1 * sin (PI / 4) + (1 * 1 * 1 + 0)) by ring. eapply Rle_trans; [exact k3|]. change (bpow radix2 (-23)) with (/ 8388608). lra.
Qed.
