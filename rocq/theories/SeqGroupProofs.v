From Verif Require Import Base SeqModel SeqSpec SeqListProofs SeqSeqProofs SeqLifeSpec SeqLifeProofs SeqRenderSpec SeqRenderProofs
  SeqGroupModel SeqGroupSpec.
From Coq Require Import Permutation.

Section Proofs.
Variables (F D : Type).
Notation tree := (tree D).
Notation tevent := (event tree).
Variable leaf_prepare : D -> option D.
Variable leaf_generate : nat -> nat -> list F -> D -> option (list F * D * bool).
Notation tprepare := (tprepare D leaf_prepare).
Notation tgenerate := (tgenerate F D leaf_prepare leaf_generate).
Notation plays n := (plays F tree tprepare (tgenerate n)).
Variable sig : D -> stage F.
Notation wf := (well_formed_event F D leaf_prepare leaf_generate sig).
Notation leaf_frame := (leaf_frame F D sig).

(** the stage of an event: all its leaves *)
Definition tstage (e : tevent) : stage F :=
  fun k x => leaf_frame (event_leaves D 0 e) (k + ev_start _ e) x.

Lemma fold_app_rev {A B} (f : A -> list B) l : forall acc, fold_left (fun acc e => f e ++ acc) l acc = concat (map f (rev l)) ++ acc.
Proof.
  induction l as [|x l IH]; intro acc; [reflexivity|]. cbn [fold_left rev]. rewrite IH, map_app, concat_app, <- app_assoc. cbn.
  now rewrite app_nil_r.
Qed.

Lemma leaves_group off s u p l : leaves D off s u p (TGroup D l) = concat (map (event_leaves D (off + s)) (rev l)).
Proof. cbn [leaves]. unfold event_leaves. rewrite (fold_app_rev (fun e => leaves D (off + s) (ev_start _ e) (ev_end _ e) (ev_prepare _ e) (ev_data _ e))). now rewrite app_nil_r. Qed.

Lemma leaf_frame_app a b t x : leaf_frame (a ++ b) t x = leaf_frame b t (leaf_frame a t x).
Proof. unfold SeqGroupSpec.leaf_frame. apply fold_left_app. Qed.

Lemma leaf_frame_concat (ls : list (list (leaf D))) t : forall x, leaf_frame (concat ls) t x = fold_left (fun acc l => leaf_frame l t acc) ls x.
Proof. induction ls as [|l ls IH]; intro x; [reflexivity|]. cbn [concat fold_left]. now rewrite leaf_frame_app, IH. Qed.

(** moving a tree in time *)
Lemma event_leaves_shift n : forall e off t x d, wf n e -> d <= off -> d <= t ->
  leaf_frame (event_leaves D off e) t x = leaf_frame (event_leaves D (off - d) e) (t - d) x.
Proof.
  induction n as [|n IH]; intros e off t x d Hwf Hd Ht; unfold well_formed_event, event_leaves in *;
    destruct (ev_data _ e) as [dd|l] eqn:Ed; cbn [well_formed] in Hwf; destruct Hwf as [Hse Hwf]; try contradiction.
  - unfold SeqGroupSpec.leaf_frame. cbn [leaves fold_left lf_start lf_end lf_data].
    bd; try lia; try reflexivity. cbn. f_equal. lia.
  - unfold SeqGroupSpec.leaf_frame. cbn [leaves fold_left lf_start lf_end lf_data].
    bd; try lia; try reflexivity. cbn. f_equal. lia.
  - destruct Hwf as [_ [_ Hl]]. rewrite !leaves_group, !leaf_frame_concat.
    apply Forall_rev in Hl. revert x. induction (rev l) as [|c cs IHc]; intro x; [reflexivity|]. inversion Hl; subst. cbn [map fold_left].
    rewrite <- IHc by assumption. f_equal. replace (off - d + ev_start _ e) with (off + ev_start _ e - d) by lia.
    apply IH; try lia. exact (proj2 H1).
Qed.

(** outside of its range an event does nothing *)
Lemma event_leaves_outside n : forall e off t x, wf n e -> t < off + ev_start _ e \/ off + ev_end _ e <= t ->
  leaf_frame (event_leaves D off e) t x = x.
Proof.
  induction n as [|n IH]; intros e off t x Hwf Ht; unfold well_formed_event, event_leaves in *;
    destruct (ev_data _ e) as [dd|l] eqn:Ed; cbn [well_formed] in Hwf; destruct Hwf as [Hse Hwf]; try contradiction.
  - unfold SeqGroupSpec.leaf_frame. cbn [leaves fold_left lf_start lf_end lf_data]. bd; auto; lia.
  - unfold SeqGroupSpec.leaf_frame. cbn [leaves fold_left lf_start lf_end lf_data]. bd; auto; lia.
  - destruct Hwf as [_ [_ Hl]]. rewrite leaves_group, leaf_frame_concat.
    apply Forall_rev in Hl. revert x. induction (rev l) as [|c cs IHc]; intro x; [reflexivity|]. inversion Hl; subst. cbn [map fold_left].
    rewrite IHc by assumption. destruct H1 as [Hc1 Hc2].
    apply IH; [exact Hc2|].
    assert (ev_start _ c <= ev_end _ c) by (destruct n; exact (proj1 Hc2)). lia.
Qed.

Lemma wf_range n e : wf n e -> ev_start _ e <= ev_end _ e.
Proof. destruct n; intro H; exact (proj1 H). Qed.

Lemma fold_frame_leaves n (cs : list tevent) : Forall (wf n) cs -> forall t x,
  frame F tree (map (fun c => (c, tstage c)) cs) t x = leaf_frame (concat (map (event_leaves D 0) cs)) t x.
Proof.
  induction 1 as [|c cs Hc Hcs IH]; intros t x; [reflexivity|].
  cbn [map concat]. rewrite frame_cons, IH, leaf_frame_app. f_equal.
  unfold SeqRenderSpec.frame. cbn [fold_left fst snd]. unfold active.
  destruct (Nat.leb_spec (ev_start _ c) t); [destruct (Nat.ltb_spec t (ev_end _ c))|]; cbn [andb].
  - unfold tstage. f_equal. lia.
  - symmetry. apply (event_leaves_outside n); auto.
  - symmetry. apply (event_leaves_outside n); auto.
Qed.

(** states of a group: unprepared, or prepared with a rest of its list *)
Definition group_state (n : nat) (e0 : tevent) (l0 : list tevent) (e : tevent) (pos : nat) : Prop :=
  ev_start _ e = ev_start _ e0 /\ ev_end _ e = ev_end _ e0 /\
  if ev_prepare _ e then ev_data _ e = TGroup D l0 /\ pos = 0
  else exists lp, ev_data _ e = TGroup D (map fst lp) /\ ready F tree tprepare (tgenerate n) pos lp /\
    forall t x, pos <= t -> frame F tree lp t x = leaf_frame (concat (map (event_leaves D 0) (rev l0))) t x.

Lemma leaf_plays_event n e d : ev_data _ e = TLeaf D d ->
  leaf_plays F D leaf_prepare leaf_generate (ev_prepare _ e) d (ev_end _ e - ev_start _ e) (sig d) -> plays n e 0 (tstage e).
Proof.
  intros Ed [Rl [HR0 [HP HG]]].
  exists (fun e' pos => ev_start _ e' = ev_start _ e /\ ev_end _ e' = ev_end _ e /\ exists d', ev_data _ e' = TLeaf D d' /\ Rl (ev_prepare _ e') d' pos).
  split; [splits; auto; exists d; auto|]. intros e1 pos [S1 [E1 [d1 [D1 R1]]]]. split.
  - intro Hp. rewrite Hp in R1. destruct (HP _ _ R1) as [d2 [A B]]. unfold SeqGroupModel.tprepare. rewrite D1, A. cbn [bind].
    eexists. splits; [reflexivity| |cbn; exact S1|cbn; exact E1|exists d2; cbn; auto]. unfold same. cbn. auto.
  - intros Hp c o rest H1 H2 H3. rewrite Hp in R1. rewrite S1, E1 in H2. destruct (HG d1 pos c o rest R1 H1 H2 H3) as [d2 [A B]].
    exists (set_data D e1 (TLeaf D d2)). splits; cbn; auto.
    + assert (EG : forall m, tgenerate m pos c (o ++ rest) e1 = Some (mapi (sig d) pos o ++ rest, set_data D e1 (TLeaf D d2), true)).
      { destruct m; cbn [SeqGroupModel.tgenerate]; rewrite D1, A; reflexivity. }
      rewrite EG. f_equal. f_equal. f_equal. f_equal. apply mapi_ext. intros i x Hi. unfold tstage, event_leaves. rewrite Ed.
      unfold SeqGroupSpec.leaf_frame. cbn [leaves fold_left lf_start lf_end lf_data]. bd; try lia. cbn. f_equal. lia.
    + unfold same. cbn. auto.
    + exists d2. cbn. rewrite Hp. auto.
Qed.

Lemma tree_plays n : forall e, wf n e -> plays n e 0 (tstage e).
Proof.
  induction n as [|n IH]; intros e Hwf.
  - unfold well_formed_event in Hwf. destruct (ev_data _ e) as [dd|l] eqn:Ed; cbn [well_formed] in Hwf; destruct Hwf as [Hse Hwf]; [|contradiction].
    now apply leaf_plays_event with dd.
  - unfold well_formed_event in Hwf. destruct (ev_data _ e) as [dd|l0] eqn:Ed; cbn [well_formed] in Hwf; destruct Hwf as [Hse Hwf].
    { now apply leaf_plays_event with dd. }
    destruct Hwf as [Hp0 [Hso Hl]].
    assert (Hcs : Forall (wf n) (rev l0)).
    { apply Forall_rev. eapply Forall_impl; [|exact Hl]. intros c Hc. exact (proj2 Hc). }
    exists (group_state n e l0). split.
    { unfold group_state. rewrite Hp0. auto. }
    intros e1 pos [S1 [E1 H1]]. split; intro Hp; rewrite Hp in H1.
    + destruct H1 as [D1 ->]. unfold SeqGroupModel.tprepare. rewrite D1. eexists. splits; [reflexivity| |].
      * unfold same. cbn. auto.
      * unfold group_state. cbn. splits; auto. exists (map (fun c => (c, tstage c)) (rev l0)).
        assert (Em : map fst (map (fun c => (c, tstage c)) (rev l0)) = rev l0).
        { rewrite map_map. cbn. apply map_id. }
        rewrite Em. splits; auto.
        -- unfold ready. rewrite Em. splits; auto.
           ++ eapply Forall_impl; [|exact Hcs]. apply wf_range.
           ++ apply Forall_forall. intros [c g] Hc. apply in_map_iff in Hc as [c' [[= <- <-] Hc]]. cbn [fst snd]. intros _.
              rewrite Forall_forall in Hcs. apply IH. auto.
        -- intros t x _. apply (fold_frame_leaves n). exact Hcs.
    + destruct H1 as [lp [D1 [Hr Hf]]]. intros c o rest Hc1 Hc2 Ho. cbn [SeqGroupModel.tgenerate]. rewrite D1.
      destruct (seq_list_render F tree tprepare (tgenerate n) pos c Hc1 lp (o ++ rest) [] [] Hr) as [lp' [log' [A [B [C _]]]]].
      { rewrite app_length. lia. }
      rewrite A. cbn [bind app]. exists (set_data D e1 (TGroup D (map fst lp'))). splits; [|unfold same; cbn; splits; auto|exact Hp|].
      * f_equal. f_equal. f_equal. unfold render_in. rewrite (firstn_exact o rest) by lia. rewrite (skipn_exact o rest) by lia.
        f_equal. unfold render. apply mapi_ext. intros i x Hi. rewrite Hf by lia. unfold tstage, event_leaves. rewrite Ed.
        rewrite leaves_group, !leaf_frame_concat. cbn [Nat.add]. clear -Hcs. revert x.
        induction (rev l0) as [|ch cs IHc]; intro x; [reflexivity|]. inversion Hcs; subst. cbn [map fold_left].
        rewrite <- IHc by assumption. f_equal.
        rewrite (event_leaves_shift n ch (ev_start _ e) (i + ev_start _ e) x (ev_start _ e)) by (auto; lia).
        rewrite Nat.sub_diag, Nat.add_sub. reflexivity.
      * unfold group_state. cbn. rewrite Hp. splits; auto. exists lp'. splits; auto. intros t x Ht. rewrite C by auto. apply Hf. lia.
Qed.

Lemma tree_render n t blocks (l : list tevent) :
  Forall (wf n) l -> sorted tree l -> Forall (fun e => t <= ev_start _ e) l -> blocks_fit F t blocks ->
  ready F tree tprepare (tgenerate n) t (map (fun c => (c, tstage c)) l) /\
  (forall i x, frame F tree (map (fun c => (c, tstage c)) l) i x = leaf_frame (concat (map (event_leaves D 0) l)) i x).
Proof.
  intros Hwf Hso Hst HB. split; [|intros; now apply (fold_frame_leaves n)].
  assert (Em : map fst (map (fun c => (c, tstage c)) l) = l) by (rewrite map_map; cbn; apply map_id).
  unfold ready. rewrite Em. splits; auto.
  - eapply Forall_impl; [|exact Hwf]. apply wf_range.
  - apply Forall_forall. intros [c g] Hc. apply in_map_iff in Hc as [c' [[= <- <-] Hc]]. cbn [fst snd]. intros _.
    rewrite Forall_forall in Hwf, Hst. specialize (Hst _ Hc). replace (t - ev_start _ c') with 0 by lia. apply tree_plays. auto.
Qed.
End Proofs.
