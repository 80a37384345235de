From Coq Require Import ZArith Reals List Lia Lra.
From Flocq Require Import Core BinarySingleNaN.
From Verif Require Import Base SeqModel SeqSpec SeqLifeSpec SeqRenderSpec EvModel EvSpec Ev3Proofs DblModel DblSpec DblProofs Dbl2Proofs DlineProofs DfftModel DfftProofs DkerModel DkerSpec DkerProofs Dker2Proofs Dker3Proofs DconvProofs DwaveSpec DwaveProofs
  FileModel FileSpec FileUseSpec FileProofs File2Proofs FileUseProofs RenderModel RenderProofs SeqRenderProofs ConfProofs DfileModel DfileSpec DfileProofs DtoneSpec.
Import ListNotations.
Open Scope R_scope.

Lemma reads_map {D} (g : D -> D) cc reads : forall frames results, reads_expected D g cc frames reads results -> reads_expected D (fun x => x) cc (map (map g) frames) reads results.
Proof.
  induction reads as [|[n samples] reads IH]; intros frames [|[st out] results] h; cbn [reads_expected] in *; try contradiction; [exact I|].
  destruct h as (h1 & h2 & h3 & h4). rewrite map_length. split; [exact h1|]. split; [exact h2|]. split.
  - intros j c ej. destruct (h3 j c ej) as (c' & e1 & e2 & e3). exists c'. split; [exact e1|]. split; [exact e2|]. intros i. rewrite e3. destruct ((j <? cc) && (i <? n) && (i <? length frames))%bool; [|reflexivity].
    rewrite nth_error_map. destruct (nth_error frames i) as [fr|]; [|reflexivity]. cbn [option_map]. rewrite nth_error_map. destruct (nth_error fr j); reflexivity.
  - rewrite skipn_map. apply IH. exact h4.
Qed.
Definition holding (e : event (wave_config f64)) (c : wave_config f64) : event (wave_config f64) :=
  {| ev_id := ev_id _ e; ev_start := ev_start _ e; ev_end := ev_end _ e; ev_prepare := false; ev_free := ev_free _ e; ev_data := c |}.
Lemma tone_sounding period e c t ch : tone period e c t ch = sounding period [holding e c] t ch.
Proof. unfold tone, sounding. cbn [flat_map]. rewrite app_nil_r. reflexivity. Qed.
Lemma tone_length period e c t ch : (length (tone period e c t ch) <= channel_count _ c)%nat.
Proof.
  unfold tone. destruct (active _ e t); [|cbn; lia]. rewrite map_length.
  assert (h : forall (p : wave_channel f64 -> bool) l, (length (filter p l) <= length l)%nat) by (intros p l; induction l as [|a l IH]; cbn [filter]; [lia|]; destruct (p a); cbn [length]; lia).
  eapply Nat.le_trans; [apply h|]. rewrite firstn_length. lia.
Qed.
Lemma frame_holding e c t x : SeqRenderSpec.frame (EvModel.frame f64) _ [(e, wave_stage f64 fadd fmul fzero c 0)] t x = SeqRenderSpec.frame (EvModel.frame f64) _ (map (fun e => (e, wave_stage f64 fadd fmul fzero (ev_data _ e) 0)) [holding e c]) t x.
Proof. reflexivity. Qed.
Section Near.
Variables (d : R) (k : nat) (table : list f64).
Hypothesis hd : 0 <= d <= / 1000000.
Hypothesis hk : (0 < k)%nat.
Hypothesis lt : length table = (2 * k)%nat.
Hypothesis ht : forall i, (i < 2 * k)%nat -> finite (nth i table fzero) /\ Rabs (real (nth i table fzero) - sin (2 * PI * INR i / INR (2 * k))) <= d + 16 * u.
Lemma tone_sample channels e c t ch : wvf _ c = table -> wave_valid f64 channels (ev_end _ e - ev_start _ e) c -> unit_amplitudes c -> (channel_count _ c <= 1000)%nat ->
  let s := tone (2 * k) e c t ch in
  let x := SeqRenderSpec.frame (EvModel.frame f64) _ [(e, wave_stage f64 fadd fmul fzero c 0)] t (fun _ => fzero) ch in
  finite (reread x) /\ Rabs (real (reread x) - total s) <= INR (length s) * (d + bpow radix2 (-23)).
Proof.
  intros hw hv ha hc s x. assert (ev : Forall2 (fun v x => finite v /\ Rabs (real v - x) <= d + 19 * u /\ Rabs x <= 1) (values [holding e c] t ch) s).
  { unfold s. rewrite tone_sounding. apply (values_near d k table hd hk lt ht channels). constructor; [|constructor]. cbn [holding ev_data ev_end ev_start]. auto. }
  assert (ex : x = fold_left fadd (values [holding e c] t ch) fzero) by (unfold x; rewrite frame_holding; apply frame_fold). clearbody x. subst x.
  set (l := values [holding e c] t ch) in *. destruct (near_total _ _ _ _ ev) as (fl & el & es & ea). set (n := INR (length s)) in *.
  destruct (Nat.eq_dec (length s) 0) as [z|z].
  { destruct s; [|discriminate]. cbn [length] in el. destruct l; [|discriminate]. cbn [fold_left]. assert (reread fzero = fzero) by (vm_compute; reflexivity). rewrite H. split; [reflexivity|]. change (real fzero) with 0. cbn [total fold_right length] in *. unfold n. cbn [INR]. rewrite Rminus_0_r, Rabs_R0. lra. }
  assert (n1 : 1 <= n) by (unfold n; apply (le_INR 1); lia). assert (n2 : n <= 1000) by (unfold n; replace 1000 with (INR 1000) by (rewrite INR_IZR_INZ; reflexivity); apply le_INR; pose proof (tone_length (2 * k) e c t ch); fold s in H; lia).
  pose proof u_pos as hu. pose proof u_tiny as hut. pose proof u_num as hun.
  assert (ud : u = B (-53)). { apply (Rmult_eq_reg_r (IZR (2 ^ 53))); [|apply not_0_IZR; lia]. rewrite hun, (IZR_pow2 53) by lia. rewrite <- bpow_plus. reflexivity. }
  assert (ub : u <= / 1000000000000). { apply (Rmult_le_reg_r (IZR (2 ^ 53))); [apply IZR_lt; lia|]. rewrite hun. apply (Rmult_le_reg_l 1000000000000); [lra|]. rewrite <- Rmult_assoc, Rinv_r, Rmult_1_l, Rmult_1_r by lra. apply IZR_le. lia. }
  assert (ea2 : rsum (map (fun v => Rabs (real v)) l) <= 2 * n) by (assert (n * (1 + (d + 19 * u)) <= n * 2) by (apply Rmult_le_compat_l; lra); lra).
  assert (b1 : 2 * n <= B 1000). { apply Rle_trans with (B 11); [|apply bpow_le; lia]. change (B 11) with 2048. lra. }
  destruct (fold_sum l fzero 0 0 0 eq_refl fl (Rle_refl 0)) as [ff fe].
  - lra.
  - rewrite el. cbn [Nat.add]. fold n. apply Rle_trans with (1000 * u); [apply Rmult_le_compat_r; lra|lra].
  - change (real fzero) with 0. rewrite Rabs_R0. lra.
  - change (real fzero) with 0. rewrite Rminus_0_r, Rabs_R0. cbn [INR]. lra.
  - rewrite el in fe. cbn [Nat.add] in fe. fold n in fe. set (x := fold_left fadd l fzero) in *.
    assert (ht2 : Rabs (total s) <= n).
    { clear - ev. unfold n. clear n. induction ev as [|v y l s (_ & _ & h) ev IH]; cbn [total fold_right length]; [rewrite Rabs_R0; cbn; lra|]. rewrite S_INR. fold (total s). eapply Rle_trans; [apply Rabs_triang|]. lra. }
    assert (e1 : Rabs (real x - total s) <= n * d + 4019 * u * n).
    { replace (real x - total s) with ((real x - (0 + rsum (map real l))) + (rsum (map real l) - total s)) by ring. eapply Rle_trans; [apply Rabs_triang|].
      assert (nn : 2 * n * u * (0 + rsum (map (fun y => Rabs (real y)) l)) <= 4000 * u * n).
      { apply Rle_trans with (2 * n * u * (2 * n)); [apply Rmult_le_compat_l; [apply Rmult_le_pos; lra|lra]|]. replace (2 * n * u * (2 * n)) with (4 * u * n * n) by ring. replace (4000 * u * n) with (4 * u * n * 1000) by ring. apply Rmult_le_compat_l; [|lra]. apply Rmult_le_pos; lra. }
      lra. }
    assert (nd : n * d <= n * / 1000000) by (apply Rmult_le_compat_l; lra). assert (nu : u * n <= / 1000000000000 * n) by (apply Rmult_le_compat_r; lra).
    assert (bx : Rabs (real x) <= n * (1 + / 1000)). { replace (real x) with ((real x - total s) + total s) by ring. eapply Rle_trans; [apply Rabs_triang|]. lra. }
    assert (bx2 : Rabs (real x) < B 128 - B 103). { assert (B 104 <= B 128) by (apply bpow_le; lia). assert (e104 : B 104 = 2 * B 103) by (change 104%Z with (1 + 103)%Z; rewrite bpow_plus; reflexivity). assert (B 20 <= B 103) by (apply bpow_le; lia). change (B 20) with 1048576 in H0. lra. }
    destruct (reread_nearest x ff bx2) as (fr & _). split; [exact fr|]. pose proof (reread_error x ff bx2) as er.
    replace (real (reread x) - total s) with ((real (reread x) - real x) + (real x - total s)) by ring. eapply Rle_trans; [apply Rabs_triang|].
    assert (t1 : B (-24) * Rabs (real x) <= B (-24) * (n * (1 + / 1000))) by (apply Rmult_le_compat_l; [apply bpow_ge_0|exact bx]).
    assert (t2 : B (-150) <= B (-53)) by (apply bpow_le; lia). rewrite <- ud in t2.
    assert (e23 : B (-23) = 2 * B (-24)) by (change (-23)%Z with (1 + -24)%Z; rewrite bpow_plus; reflexivity).
    assert (e24 : B (-24) = 536870912 * u). { rewrite ud. change (-24)%Z with (29 + -53)%Z. rewrite bpow_plus. reflexivity. }
    rewrite e23, e24 in *. assert (u <= u * n) by (rewrite <- (Rmult_1_r u) at 1; apply Rmult_le_compat_l; lra). lra.
Qed.
End Near.
Lemma tone_file d fcos fsin k junk table cc (e : event (wave_config f64)) c end_ rate bs (h : heap (wave_config f64)) junkb before reads :
  libm_near d fcos fsin -> 0 <= d <= / 1000000 -> (0 < k)%nat -> (Z.of_nat (2 * k) < 2 ^ 32)%Z -> length junk = (2 * k)%nat -> sine_period64 fsin (2 * k) junk = Some table ->
  (if ev_prepare _ e then wave_prepare f64 (ev_data _ e) = Some c else ev_data _ e = c) ->
  wvf _ c = table -> wave_valid f64 cc (ev_end _ e - ev_start _ e) c -> wave_small f64 c -> unit_amplitudes c -> (channel_count _ c <= 1000)%nat ->
  (ev_start _ e <= ev_end _ e)%nat -> nodes _ h (fresh _ h) = None -> (0 < cc)%nat -> (0 < bs)%nat -> (36 + 4 * Z.of_nat cc * Z.of_nat end_ < 2 ^ 32)%Z ->
  (forall n, length (junkb n) = n) -> f_channels before = cc -> Forall (read_ok f64 cc) reads ->
  exists bytes h' f frames results,
    render_range_file f64 _ fzero narrow32 (wave_event_prepare f64) (wave_event_generate f64 fadd fmul cc) junkb e 0 end_ cc rate bs h = Some (true, bytes, h') /\ (forall q, nodes _ h' q = nodes _ h q) /\
    open_read (Some bytes) before = Some (status_success, f) /\ read_all f64 widen32 f reads = Some results /\
    length frames = end_ /\ reads_expected f64 (fun x => x) cc frames reads results /\
    forall t ch, (t < end_)%nat -> (ch < cc)%nat -> exists x, nth_error (nth t frames []) ch = Some x /\ finite x /\
      Rabs (real x - total (tone (2 * k) e c t ch)) <= INR (length (tone (2 * k) e c t ch)) * (d + bpow radix2 (-23)).
Proof.
  intros libm hd hk h32 lj et hp hw hv hs ha hc hse hn hcc hbs hsz hj hb hr. destruct (table_near d fcos fsin k junk libm hk h32 lj) as (o & eo & lo & ho). rewrite et in eo. injection eo as <-.
  pose proof (wave_plays f64 fadd fmul fzero cc e c _ hp hv hs (le_n _)) as pl.
  destruct (render_file_correct f64 (wave_config f64) fzero narrow32 (wave_event_prepare f64) (wave_event_generate f64 fadd fmul cc) junkb hj e _ 0 end_ cc rate bs h (Nat.le_0_l _) ltac:(unfold Base.two32; nia) hse pl hn hcc hbs) as (h' & er & hh).
  { rewrite Nat.sub_0_r. exact hsz. }
  rewrite Nat.sub_0_r in er. set (frames0 := flat cc (render (nat -> f64) (wave_config f64) [(e, wave_stage f64 fadd fmul fzero c 0)] 0 (silence f64 fzero end_))) in *.
  assert (l0 : length frames0 = end_) by (unfold frames0, flat; rewrite map_length; unfold render; rewrite Verif.SeqRenderProofs.mapi_length; apply repeat_length).
  assert (F0 : Forall (fun fr => length fr = cc) frames0) by (unfold frames0, flat; apply Forall_map; apply Forall_forall; intros fr _; rewrite map_length, seq_length; reflexivity).
  destruct (read_file f64 narrow32 widen32 narrow_range before (36 + Z.of_nat (length (data_bytes narrow32 frames0))) cc rate [] frames0 reads hb hcc F0) as (f & results & e1 & e2 & e3).
  - constructor.
  - rewrite (data_bytes_length f64 narrow32 frames0 cc F0), l0. unfold Base.two32. nia.
  - exact hr.
  - exists (wav_file cc rate (data_bytes narrow32 frames0)), h', f, (map (map reread) frames0), results. split; [exact er|]. split; [exact hh|]. split; [exact e1|]. split; [exact e2|]. split; [rewrite map_length; exact l0|]. split; [apply reads_map; exact e3|].
    intros t ch htt hch. set (x := SeqRenderSpec.frame (EvModel.frame f64) _ [(e, wave_stage f64 fadd fmul fzero c 0)] t (fun _ => fzero) ch). exists (reread x). split; [|apply (tone_sample d k table hd hk lo ho cc e c t ch hw hv ha hc)].
    assert (nt : nth_error (map (map reread) frames0) t = Some (map reread (map (SeqRenderSpec.frame (EvModel.frame f64) _ [(e, wave_stage f64 fadd fmul fzero c 0)] t (fun _ => fzero)) (seq 0 cc)))).
    { rewrite nth_error_map. unfold frames0, flat. rewrite nth_error_map. unfold render. rewrite (ConfProofs.nth_error_mapi _ _ 0 t (fun _ => fzero)); [reflexivity|]. unfold silence. apply nth_error_repeat. exact htt. }
    rewrite (nth_error_nth _ _ [] nt). rewrite !nth_error_map. rewrite (nth_error_nth' _ 0%nat) by (rewrite seq_length; exact hch). rewrite seq_nth by exact hch. reflexivity.
Qed.
