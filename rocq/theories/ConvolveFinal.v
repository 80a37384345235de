(** Final forms of the convolution results *)
From Verif Require Import Base ConvolveModel ConvolveSpec ConvolveProofs.

Section Final.
Variable V : Type.
Variables (zero : V) (add mul : V -> V -> V).

Lemma convolve_first_call (a b out : list V) carryover_len :
  b <> [] -> length out = length a -> carryover_len <= length b - 1 ->
  sp_convolve V zero add mul a (length a) b (length b) carryover_len (repeat zero (length b - 1)) out =
  Some (conv_samples V zero add mul a b 0 (length a), conv_samples V zero add mul a b (length a) (length b - 1)).
Proof.
  intros Hb Ho Hc; apply length_pos in Hb.
  destruct (convolve_spec V zero add mul a (length a) b (length b) carryover_len (repeat zero (length b - 1)) out)
    as (o & c & E & L1 & L2 & G); try (rewrite ?repeat_length; lia).
  rewrite E; rewrite repeat_length in *; rewrite !firstn_all in G.
  assert (Hall : forall k, k < length a + (length b - 1) -> nth_error (o ++ c) k = Some (conv_sample V add mul zero a b k)).
  { intros k Hk; destruct (G k Hk) as (v & Ev & Hv); rewrite Hv; do 2 f_equal.
    revert Ev; unfold prepared; bd; rewrite ?nth_error_repeat by lia; congruence. }
  f_equal; f_equal.
  - apply list_eq_tab; [lia|]; intros i Hi; rewrite <- Hall by lia; rewrite nth_error_app1 by lia; reflexivity.
  - apply list_eq_tab; [lia|]; intros i Hi; rewrite <- Hall by lia; rewrite nth_error_app2 by lia; f_equal; lia.
Qed.

Lemma convolve_one_whole (a b : list V) n :
  length a + length b - 1 <= n ->
  sp_convolve_one V add mul a (length a) b (length b) (repeat zero n) = Some (conv_samples V zero add mul a b 0 n).
Proof.
  intros H.
  destruct (convolve_one_spec V zero add mul a (length a) b (length b) (repeat zero n)) as (o & E & L & G);
    try (rewrite ?repeat_length; lia).
  rewrite E; f_equal; rewrite repeat_length in L; apply list_eq_tab; auto.
  intros i Hi; rewrite G, nth_error_repeat by lia; rewrite firstn_all; f_equal; symmetry.
  apply (conv_sample_fold_len V add mul); auto.
Qed.

Lemma convolve_stream_whole junk b segments :
  b <> [] -> (forall n, length (junk n) = n) ->
  convolve_stream V zero add mul junk b (repeat zero (length b - 1)) segments =
  Some (conv_samples V zero add mul (concat segments) b 0 (length (concat segments)),
        conv_samples V zero add mul (concat segments) b (length (concat segments)) (length b - 1)).
Proof.
  intros Hb Hj; apply length_pos in Hb.
  rewrite <- (conv_samples_nil V zero add mul b 0 (length b - 1)).
  exact (convolve_stream_spec V zero add mul junk b Hb Hj segments []).
Qed.

Lemma convolve_segmentation junk b segments :
  b <> [] -> (forall n, length (junk n) = n) ->
  convolve_stream V zero add mul junk b (repeat zero (length b - 1)) segments =
  sp_convolve V zero add mul (concat segments) (length (concat segments)) b (length b) (length b - 1)
    (repeat zero (length b - 1)) (junk (length (concat segments))).
Proof.
  intros Hb Hj; rewrite convolve_stream_whole by auto; rewrite convolve_first_call; auto.
Qed.

Lemma convolve_safe (a b carryover out : list V) a_len b_len carryover_len :
  a_len <= length a -> 0 < b_len -> b_len <= length b -> length out = a_len ->
  carryover_len <= length carryover -> b_len - 1 <= length carryover ->
  exists out' carryover',
    sp_convolve V zero add mul a a_len b b_len carryover_len carryover out = Some (out', carryover') /\
    length out' = length out /\ length carryover' = length carryover /\
    forall j, carryover_len <= j -> b_len - 1 <= j -> nth_error carryover' j = nth_error carryover j.
Proof.
  intros Ha Hb0 Hb Ho Hc Hcb.
  destruct (convolve_spec V zero add mul a a_len b b_len carryover_len carryover out) as (o & c & E & L1 & L2 & G); auto.
  exists o, c; splits; auto; intros j Hj1 Hj2.
  destruct (Nat.lt_ge_cases j (length carryover)) as [Hj|Hj].
  - destruct (G (a_len + j)) as (v & Ev & Hv); [lia|].
    rewrite nth_error_app2 in Hv by lia; replace (a_len + j - length o) with j in Hv by lia; rewrite Hv.
    rewrite conv_sample_beyond by (rewrite !firstn_length; lia).
    revert Ev; unfold prepared; replace (a_len + j - a_len) with j by lia; bd; try lia; congruence.
  - rewrite !(proj2 (nth_error_None _ _)) by lia; reflexivity.
Qed.

(** necessity of the sizes *)
Lemma blit_dst_none (src : list V) so dst d n : length dst < d + n -> blit src so dst d n = None.
Proof.
  intros H; unfold blit; destruct (slice src so n) as [l|] eqn:E; simpl; auto.
  apply splice_none; rewrite (slice_length _ _ _ _ E); auto.
Qed.
Lemma blit_src_none (src : list V) so dst d n : length src < so + n -> blit src so dst d n = None.
Proof. intros H; unfold blit; rewrite slice_none by auto; reflexivity. Qed.
Lemma fill_none (a : list V) o n v : length a < o + n -> fill a o n v = None.
Proof. intros H; apply splice_none; rewrite repeat_length; auto. Qed.

Lemma accumulate_length (a b : list V) ai bi c out out' :
  accumulate V add mul a b ai bi c out = Some out' -> length out' = length out.
Proof.
  unfold accumulate; intros E; apply bind_some in E; destruct E as (x & _ & E).
  apply bind_some in E; destruct E as (y & _ & E); apply bind_some in E; destruct E as (o & _ & E).
  eapply aset_length; eauto.
Qed.

Lemma tail_step_length (a : list V) a_len b ai bi (s s' : list V * list V) :
  (let '(out, carryover) := s in
      let c_index := ai + bi in
      if c_index <? a_len then
        out <- accumulate V add mul a b ai bi c_index out ;; Some (out, carryover)
      else
        carryover <- accumulate V add mul a b ai bi (c_index - a_len) carryover ;; Some (out, carryover)) = Some s' ->
  length (snd s') = length (snd s).
Proof.
  destruct s as [out carry]; cbv zeta; destruct (ai + bi <? a_len); intros E; apply bind_some in E;
    destruct E as (x & E1 & E2); injection E2 as <-; simpl; auto.
  eapply accumulate_length; eauto.
Qed.

Lemma tail_none (a b : list V) a_len b_len size out carry :
  size < a_len -> length carry < b_len - 1 ->
  convolve_tail V add mul a a_len b b_len size (out, carry) = None.
Proof.
  intros Hs Hc; unfold convolve_tail.
  rewrite (for_split _ size (a_len - 1) a_len) by lia.
  match goal with |- bind ?m _ = None => destruct m as [s|] eqn:E; [|reflexivity] end; cbn [bind].
  assert (Hl : length (snd s) = length carry).
  { refine (for_inv_partial (fun _ s => length (snd s) = length carry) _ size (a_len - 1) (out, carry) s _ _ _ E); auto; [lia|].
    intros i s1 s2 _ H1 E1.
    refine (for_inv_partial (fun _ s => length (snd s) = length carry) _ 0 b_len s1 s2 _ _ _ E1); auto; [lia|].
    intros j s3 s4 _ H3 E3; apply tail_step_length in E3; congruence. }
  unfold for_ at 1; replace (a_len - (a_len - 1)) with 1 by lia; cbn [for_from].
  rewrite (for_split _ 0 (b_len - 1) b_len) by lia.
  match goal with |- bind (bind ?m _) _ = None => destruct m as [s'|] eqn:E'; [|reflexivity] end; cbn [bind].
  assert (Hl' : length (snd s') = length carry).
  { rewrite <- Hl.
    refine (for_inv_partial (fun _ t => length (snd t) = length (snd s)) _ 0 (b_len - 1) s s' _ _ _ E'); auto; [lia|].
    intros j s3 s4 _ H3 E3; apply tail_step_length in E3; congruence. }
  unfold for_; replace (b_len - (b_len - 1)) with 1 by lia; cbn [for_from].
  destruct s' as [o c]; cbv zeta; simpl in Hl'.
  destruct (Nat.ltb_spec (a_len - 1 + (b_len - 1)) a_len); [lia|].
  unfold accumulate, aget.
  destruct (nth_error a (a_len - 1)); cbn [bind]; auto.
  destruct (nth_error b (b_len - 1)); cbn [bind]; auto.
  rewrite (proj2 (nth_error_None c _)) by lia; reflexivity.
Qed.

Lemma prepare_length a_len clen carry out o c :
  convolve_prepare V zero a_len clen carry out = Some (o, c) -> length c = length carry.
Proof.
  unfold convolve_prepare; destruct (0 <? clen); [destruct (clen <=? a_len)|]; intros E.
  - apply bind_some in E; destruct E as (x & _ & E); apply bind_some in E; destruct E as (y & Ey & E);
      apply bind_some in E; destruct E as (z & _ & E); injection E as <- <-; eapply fill_length; eauto.
  - apply bind_some in E; destruct E as (x & _ & E); apply bind_some in E; destruct E as (y & Ey & E);
      apply bind_some in E; destruct E as (z & Ez & E); injection E as <- <-.
    rewrite (fill_length _ _ _ _ _ Ez); eapply blit_length; eauto.
  - apply bind_some in E; destruct E as (x & _ & E); injection E as <- <-; reflexivity.
Qed.

Lemma convolve_unsafe (a b carryover out : list V) a_len b_len carryover_len :
  a_len <= length a -> 0 < b_len -> b_len <= length b ->
  length out < a_len \/ length carryover < carryover_len \/ (0 < a_len /\ length out = a_len /\ length carryover < b_len - 1) ->
  sp_convolve V zero add mul a a_len b b_len carryover_len carryover out = None.
Proof.
  intros Ha Hb0 Hb H; unfold sp_convolve.
  destruct (convolve_prepare V zero a_len carryover_len carryover out) as [[o c]|] eqn:E; [|reflexivity]; cbn [bind].
  destruct H as [H|[H|H]].
  - exfalso; revert E; unfold convolve_prepare.
    destruct (Nat.ltb_spec 0 carryover_len); [destruct (Nat.leb_spec carryover_len a_len)|].
    + destruct (blit carryover 0 out 0 carryover_len) eqn:E1; cbn [bind]; [|discriminate].
      destruct (fill carryover 0 carryover_len zero); cbn [bind]; [|discriminate].
      rewrite fill_none; [discriminate|]; rewrite (blit_length _ _ _ _ _ _ E1); lia.
    + rewrite blit_dst_none by lia; discriminate.
    + rewrite fill_none by lia; discriminate.
  - exfalso; revert E; unfold convolve_prepare.
    destruct (Nat.ltb_spec 0 carryover_len); [destruct (Nat.leb_spec carryover_len a_len)|lia].
    + rewrite blit_src_none by lia; discriminate.
    + destruct (blit carryover 0 out 0 a_len); cbn [bind]; [|discriminate].
      rewrite blit_src_none by lia; discriminate.
  - destruct H as (H0 & H1 & H2); apply prepare_length in E.
    match goal with |- bind ?m _ = None => destruct m as [o2|]; [|reflexivity] end; cbn [bind].
    apply tail_none; [|lia].
    destruct (Nat.ltb_spec a_len b_len); lia.
Qed.
End Final.
