From Verif Require Import Base SeqModel SeqSpec SeqListProofs SeqLifeSpec SeqRenderSpec SeqRenderProofs SeqRenderFinal
  SeqGroupModel SeqGroupSpec SeqGroupProofs.
From Coq Require Import Permutation.

Section Final.
Variables (F D : Type).
Notation tree := (tree D).
Notation tevent := (event tree).
Variable leaf_prepare : D -> option D.
Variable leaf_generate : nat -> nat -> list F -> D -> option (list F * D * bool).
Notation tprepare := (tprepare D leaf_prepare).
Notation tgenerate := (tgenerate F D leaf_prepare leaf_generate).
Variable sig : D -> stage F.
Notation wf := (well_formed_event F D leaf_prepare leaf_generate sig).

Lemma tree_run n t blocks h head L :
  represents tree h head L -> sorted tree (map snd L) -> Forall (wf n) (map snd L) ->
  Forall (fun e => t <= ev_start _ e) (map snd L) -> blocks_exact F t blocks ->
  exists r, run_blocks F tree tprepare (tgenerate n) t blocks head h = Some r /\ rr_ok F tree r = true /\
    concat (rr_outs F tree r) =
      mapi (leaf_frame F D sig (concat (map (event_leaves D 0) (map snd L)))) t (concat (map snd blocks)).
Proof.
  intros HR Hso Hwf Hst HB.
  set (l := map snd L) in *. set (lp := map (fun c => (c, tstage F D sig c)) l).
  destruct (tree_render F D leaf_prepare leaf_generate sig n t blocks l Hwf Hso Hst (exact_fit F tree (tgenerate n) blocks t HB)) as [[R1 [R2 R3]] Hf].
  fold lp in R1, R2, R3, Hf.
  assert (Em : map fst lp = l) by (unfold lp; rewrite map_map; cbn; apply map_id).
  destruct (render_correct F tree tprepare (tgenerate n) t blocks h head L lp) as [r [A [B C]]]; auto.
  - clear -R2. induction lp; cbn in *; constructor; inversion R2; auto.
  - exists r. splits; auto. rewrite C. unfold render. apply mapi_ext. intros. apply Hf.
Qed.

Lemma wf_mono n : forall e, wf n e -> wf (S n) e.
Proof.
  induction n as [|n IH]; intros e H; unfold well_formed_event in *; destruct (ev_data _ e) as [d|l]; cbn [well_formed] in *;
    destruct H as [H0 H]; split; auto; try contradiction.
  destruct H as [H1 [H2 H3]]. splits; auto. eapply Forall_impl; [|exact H3]. intros c [C1 C2]. split; [exact C1|]. apply (IH c C2).
Qed.

Lemma wf_shift n e s : wf n e -> wf n (tshift D s e).
Proof.
  unfold well_formed_event, tshift. cbn.
  destruct n; cbn [well_formed]; intros [H0 H]; (split; [lia|]); destruct (ev_data _ e) as [d|l]; auto;
    replace (s + ev_end _ e - (s + ev_start _ e)) with (ev_end _ e - ev_start _ e) by lia; auto.
Qed.

Lemma leaves_shift s e : event_leaves D 0 (tshift D s e) = event_leaves D s e.
Proof. unfold event_leaves, tshift. cbn. destruct (ev_data _ e); cbn [leaves]; reflexivity. Qed.

(** a group equals its events, shifted to the start of the group *)
Lemma group_shift n t blocks (g : tevent) l h1 head1 L1 h2 head2 L2 :
  ev_data _ g = TGroup D l -> wf (S n) g -> t <= ev_start _ g ->
  represents tree h1 head1 L1 -> map snd L1 = [g] ->
  represents tree h2 head2 L2 -> map snd L2 = map (tshift D (ev_start _ g)) (rev l) ->
  blocks_exact F t blocks ->
  exists r1 r2,
    run_blocks F tree tprepare (tgenerate (S n)) t blocks head1 h1 = Some r1 /\
    run_blocks F tree tprepare (tgenerate (S n)) t blocks head2 h2 = Some r2 /\
    rr_ok F tree r1 = true /\ rr_ok F tree r2 = true /\ concat (rr_outs F tree r1) = concat (rr_outs F tree r2).
Proof.
  intros Eg Hwf Ht HR1 E1 HR2 E2 HB.
  assert (Hl : sorted tree (rev l) /\ Forall (wf n) (rev l)).
  { unfold well_formed_event in Hwf. rewrite Eg in Hwf. cbn [well_formed] in Hwf. destruct Hwf as [_ [_ [A B]]]. split; [exact A|].
    apply Forall_rev. eapply Forall_impl; [|exact B]. intros c Hc. exact (proj2 Hc). }
  destruct Hl as [Hso Hc].
  destruct (tree_run (S n) t blocks h1 head1 L1 HR1) as [r1 [A1 [B1 C1]]]; auto.
  { rewrite E1. cbn. auto. }
  { rewrite E1. auto. }
  { rewrite E1. auto. }
  destruct (tree_run (S n) t blocks h2 head2 L2 HR2) as [r2 [A2 [B2 C2]]]; auto.
  { rewrite E2. clear -Hso. induction (rev l) as [|x k IH]; cbn in *; auto. destruct Hso as [P Q]. split; [|auto].
    clear -P. induction P; cbn; constructor; auto. cbn. lia. }
  { rewrite E2. clear -Hc. induction Hc; cbn; constructor; auto. apply wf_mono. now apply wf_shift. }
  { rewrite E2. apply Forall_forall. intros x Hx. apply in_map_iff in Hx as [y [<- _]]. cbn. lia. }
  exists r1, r2. splits; auto. rewrite C1, C2, E1, E2. f_equal. f_equal. cbn [map concat]. rewrite app_nil_r.
  unfold event_leaves at 1. rewrite Eg, leaves_group. cbn [Nat.add]. f_equal. rewrite map_map. apply map_ext. intro c. symmetry. apply leaves_shift.
Qed.

(** building groups *)
Variable prepare : tevent -> option tevent.
Notation add_all := (add_all D prepare).
Notation append_all := (append_all D prepare).

Lemma pair_snd {A} (l : list A) : map snd (map (pair 0) l) = l.
Proof. rewrite map_map. apply map_id. Qed.

Lemma insert_facts e l : descending tree l ->
  descending tree (group_insert D e l) /\ Permutation (group_insert D e l) (e :: l) /\
  (forall t, starting_at tree t (group_insert D e l) = starting_at tree t [e] ++ starting_at tree t l).
Proof.
  intro Hd. unfold group_insert. rewrite <- (pair_snd l) in Hd. splits.
  - apply insert_descending. exact Hd.
  - rewrite (Permutation_map snd (insert_perm tree (0, e) _)). cbn [map snd]. now rewrite pair_snd.
  - intro t. rewrite insert_stable by exact Hd. cbn [snd]. now rewrite pair_snd.
Qed.

Lemma add_all_correct adds : forall group l,
  ev_data _ group = TGroup D l -> descending tree l ->
  exists rs group' l',
    add_all adds group = Some (rs, group') /\ ev_data _ group' = TGroup D l' /\ ev_start _ group' = ev_start _ group /\
    ev_end _ group' = fold_left Nat.max (map (ev_end _) (added D prepare adds)) (ev_end _ group) /\
    descending tree l' /\ Permutation l' (added D prepare adds ++ l) /\
    (forall t, starting_at tree t l' = rev (starting_at tree t (added D prepare adds)) ++ starting_at tree t l) /\
    rs = map (fun x => fst x && match resolve D prepare (snd x) with Some _ => true | None => false end) adds.
Proof.
  induction adds as [|[ok e] adds IH]; intros group l Hg Hd.
  - exists [], group, l. splits; auto.
  - cbn [SeqGroupSpec.add_all]. unfold group_add. rewrite Hg. fold (resolve D prepare e). cbn [added flat_map fst snd map].
    destruct (resolve D prepare e) as [e1|] eqn:Er; [|].
    + destruct ok.
      * cbn [bind]. destruct (insert_facts e1 l Hd) as [I1 [I2 I3]].
        set (g1 := if _ <? _ then _ else _).
        assert (G1 : ev_data _ g1 = TGroup D (group_insert D e1 l)) by (unfold g1; destruct (_ <? _); reflexivity).
        assert (G2 : ev_start _ g1 = ev_start _ group) by (unfold g1; destruct (_ <? _); reflexivity).
        assert (G3 : ev_end _ g1 = Nat.max (ev_end _ group) (ev_end _ e1)).
        { unfold g1. cbn [set_data ev_end]. destruct (Nat.ltb_spec (ev_end _ group) (ev_end _ e1)); cbn [set_end set_data ev_end]; lia. }
        destruct (IH g1 _ G1 I1) as [rs [g' [l' [A [B [C [E [P [Q [R S]]]]]]]]]]. rewrite A. cbn [bind].
        exists (true :: rs), g', l'. rewrite C, G2, E, G3. splits; auto.
        -- rewrite Q, I2. cbn [app]. symmetry. apply Permutation_middle.
        -- intro t. rewrite R, I3. cbn [app]. change (e1 :: flat_map ?f adds) with ([e1] ++ flat_map f adds).
           rewrite starting_at_app, rev_app_distr, <- app_assoc. f_equal. f_equal. unfold starting_at. cbn. destruct (_ =? _); reflexivity.
        -- cbn. now f_equal.
      * cbn [bind]. destruct (IH group l Hg Hd) as [rs [g' [l' [A [B [C [E [P [Q [R S]]]]]]]]]]. rewrite A. cbn [bind].
        exists (false :: rs), g', l'. splits; auto. cbn. now f_equal.
    + cbn [bind]. destruct (IH group l Hg Hd) as [rs [g' [l' [A [B [C [E [P [Q [R S]]]]]]]]]]. rewrite A. cbn [bind].
      exists (false :: rs), g', l'. splits; auto; try (destruct ok; auto). all: cbn; try now f_equal.
Qed.

Lemma append_all_correct events : forall resolved group l,
  ev_data _ group = TGroup D l -> descending tree l ->
  map (resolve D prepare) events = map Some resolved ->
  exists rs group' l',
    append_all events group = Some (rs, group') /\ ev_data _ group' = TGroup D l' /\ ev_start _ group' = ev_start _ group /\
    ev_end _ group' = ev_end _ group + list_sum (map (ev_end _) resolved) /\
    descending tree l' /\ Permutation l' (placed D (ev_end _ group) resolved ++ l) /\ rs = map (fun _ => true) events.
Proof.
  induction events as [|e events IH]; intros resolved group l Hg Hd Hr.
  - destruct resolved; [|discriminate]. exists [], group, l. splits; auto.
  - destruct resolved as [|e1 resolved]; [discriminate|]. cbn [map] in Hr. injection Hr as Hr1 Hr2.
    cbn [SeqGroupSpec.append_all]. unfold group_append. rewrite Hg. fold (resolve D prepare e). rewrite Hr1. cbn [bind].
    set (e2 := tshift D (ev_end _ group) e1). set (g1 := set_data _ _ _).
    destruct (insert_facts e2 l Hd) as [I1 [I2 _]].
    destruct (IH resolved g1 (group_insert D e2 l) eq_refl I1 Hr2) as [rs [g' [l' [A [B [C [E [P [Q R]]]]]]]]]. rewrite A. cbn [bind].
    exists (true :: rs), g', l'. rewrite C, E. cbn [g1 e2 set_data set_end tshift ev_start ev_end ev_data] in *. splits; auto.
    + cbn [map list_sum fold_right]. unfold list_sum. lia.
    + rewrite Q, I2. cbn [placed app]. symmetry. apply Permutation_middle.
    + cbn. now f_equal.
Qed.
Lemma failed_add ok (group e group' : tevent) : group_add D prepare ok group e = Some (false, group') -> group' = group.
Proof.
  unfold group_add. destruct (ev_data _ group); [discriminate|]. fold (resolve D prepare e). destruct (resolve D prepare e); [|congruence].
  destruct ok; congruence.
Qed.
End Final.
