From Verif Require Import Base SeqModel SeqSpec SeqListProofs SeqSeqProofs SeqLifeSpec.

Section Proofs.
Variables (F D : Type).
Notation event := (event D).
Notation same := (same D).
Notation acts_of := (acts_of D).
Variable prepare : event -> option event.
Variable generate : nat -> nat -> list F -> event -> option (list F * event * bool).
Notation seq_list := (seq_list F D prepare generate).

Lemma same_refl e : same e e.
Proof. unfold SeqLifeSpec.same. auto. Qed.
Lemma same_trans a b c : same a b -> same b c -> same a c.
Proof. unfold SeqLifeSpec.same. intuition congruence. Qed.

Inductive subseq : list event -> list event -> Prop :=
| sub_nil : forall l, subseq [] l
| sub_skip : forall a l x, subseq a l -> subseq a (x :: l)
| sub_keep : forall a l x y, same x y -> subseq a l -> subseq (x :: a) (y :: l).

Lemma subseq_refl l : subseq l l.
Proof. induction l; [constructor|apply sub_keep; auto using same_refl]. Qed.
Lemma subseq_in a l x : subseq a l -> In x a -> exists y, In y l /\ same x y.
Proof.
  induction 1; cbn; intro Hi; [contradiction| |].
  - destruct (IHsubseq Hi) as [z [Hz Hs]]. eauto.
  - destruct Hi as [<-|Hi]; [eauto|]. destruct (IHsubseq Hi) as [z [Hz Hs]]. eauto.
Qed.
Lemma subseq_nodup a l : subseq a l -> NoDup (map (ev_id D) l) -> NoDup (map (ev_id D) a).
Proof.
  induction 1; cbn; intro Hn; [constructor| |]; inversion Hn; subst; auto. constructor; auto.
  intro Hi. apply in_map_iff in Hi as [z [Ez Hz]]. destruct (subseq_in _ _ _ H0 Hz) as [w [Hw [Hs _]]].
  destruct H as [H _]. apply H3. apply in_map_iff. exists w. split; [congruence|auto].
Qed.
Lemma subseq_sorted a l : subseq a l -> sorted D l -> sorted D a.
Proof.
  induction 1; cbn; intro Hs; [auto| |]; destruct Hs as [H1 H2]; auto. split; auto.
  apply Forall_forall. intros z Hz. destruct (subseq_in _ _ _ H0 Hz) as [w [Hw [_ [Hs _]]]].
  rewrite Forall_forall in H1. specialize (H1 w Hw). destruct H as [_ [H _]]. lia.
Qed.
Lemma subseq_app a a' b b' : subseq a a' -> subseq b b' -> subseq (a ++ b) (a' ++ b').
Proof.
  intros H1 H2. induction H1; cbn; [|now apply sub_skip|now apply sub_keep].
  induction l; cbn; [auto|now apply sub_skip].
Qed.

Lemma acts_app i a b : acts_of i (a ++ b) = acts_of i a ++ acts_of i b.
Proof. apply filter_app. Qed.

Lemma acts_free_in l e : NoDup (map (ev_id D) l) -> In e l -> acts_of (ev_id D e) (free_log D l) = free_log D [e].
Proof.
  intros Hn Hi. apply in_split in Hi as [a [b ->]]. rewrite map_app in Hn. cbn in Hn.
  apply NoDup_remove_2 in Hn. rewrite in_app_iff in Hn.
  assert (A : forall l : list event, ~ In (ev_id D e) (map (ev_id D) l) -> acts_of (ev_id D e) (free_log D l) = []).
  { induction l as [|x l IH]; intro H; [reflexivity|]. unfold free_log. cbn [filter]. cbn in H.
    destruct (ev_free D x); cbn [map SeqLifeSpec.acts_of filter action_id].
    - destruct (Nat.eqb_spec (ev_id D x) (ev_id D e)); [tauto|]. apply IH. tauto.
    - apply IH. tauto. }
  unfold free_log. rewrite filter_app, map_app, acts_app. fold (free_log D a). rewrite A by tauto. cbn [app filter].
  destruct (ev_free D e); cbn [map SeqLifeSpec.acts_of filter action_id].
  - rewrite Nat.eqb_refl. f_equal. apply A. tauto.
  - apply A. tauto.
Qed.
Lemma acts_free_notin l i : ~ In i (map (ev_id D) l) -> acts_of i (free_log D l) = [].
Proof.
  induction l as [|x l IH]; intro H; [reflexivity|]. unfold free_log. cbn [filter]. cbn in H.
  destruct (ev_free D x); cbn [map SeqLifeSpec.acts_of filter action_id].
  - destruct (Nat.eqb_spec (ev_id D x) i); [tauto|]. apply IH. tauto.
  - apply IH. tauto.
Qed.

Hypothesis KEEP : callbacks_keep_identity F D prepare generate.

(** what one call does to one event: [acts] its callbacks, [e'] its new state *)
Inductive outcome (s u : nat) (ok : bool) (l' : list event) (e : event) (acts : list (action D)) : Prop :=
| o_expired : ev_end D e <= s -> acts = free_log D [e] -> ~ In (ev_id D e) (map (ev_id D) l') -> outcome s u ok l' e acts
| o_future : s < ev_end D e -> u <= ev_start D e -> acts = (if ok then [] else free_log D [e]) -> (ok = true -> In e l') -> outcome s u ok l' e acts
| o_active : forall e', s < ev_end D e -> ev_start D e < u -> same e' e ->
    s - ev_start D e <= Nat.min u (ev_end D e) - ev_start D e ->
    acts = (if ev_prepare D e then [APrepare D (ev_id D e)] else []) ++
      [AGenerate D (ev_id D e) (s - ev_start D e) (Nat.min u (ev_end D e) - ev_start D e)] ++ (if ok then [] else free_log D [e']) ->
    ev_prepare D e' = false -> (ok = true -> In e' l') -> outcome s u ok l' e acts
| o_unreached : ok = false -> s < ev_end D e ->
    (acts = free_log D [e] \/ (ev_prepare D e = true /\ acts = APrepare D (ev_id D e) :: free_log D [e])) -> outcome s u ok l' e acts.

Lemma in_ids (l : list event) e : In e l -> In (ev_id D e) (map (ev_id D) l).
Proof. apply in_map. Qed.

Lemma min_sub a b c : Nat.min a b - c = Nat.min (a - c) (b - c).
Proof. lia. Qed.

Ltac nodup_neq H := let X := fresh in intro X; apply H; rewrite ?in_app_iff; cbn; rewrite ?X; auto using in_ids.

Lemma seq_list_outcome s u : s < u -> forall l out kept log ok out' l' log',
  NoDup (map (ev_id D) (kept ++ l)) -> sorted D l -> Forall (fun e => ev_start D e <= ev_end D e) l ->
  seq_list s u out kept l log = Some (ok, out', l', log') ->
  exists lg, log' = log ++ lg /\ subseq l' (kept ++ l) /\
    (forall e, In e l -> outcome s u ok l' e (acts_of (ev_id D e) lg)) /\
    (forall e, In e kept -> acts_of (ev_id D e) lg = (if ok then [] else free_log D [e]) /\ (ok = true -> In e l')) /\
    (forall i, ~ In i (map (ev_id D) (kept ++ l)) -> acts_of i lg = []).
Proof.
  intro Hsu. induction l as [|e l IH]; intros out kept log ok out' l' log' Hnd Hso Hwf H.
  - cbn in H. injection H as <- <- <- <-. exists []. rewrite !app_nil_r. splits; auto using subseq_refl.
    intros e [].
  - cbn [seq_list] in H. destruct Hso as [Hso1 Hso2]. inversion Hwf as [|? ? Hwf1 Hwf2]; subst.
    pose proof Hnd as Hnd0. rewrite map_app in Hnd. cbn [map] in Hnd.
    pose proof (NoDup_remove_2 _ _ _ Hnd) as He. pose proof (NoDup_remove_1 _ _ _ Hnd) as Hnd1. rewrite <- map_app in He, Hnd1.
    destruct (Nat.leb_spec (ev_end D e) s) as [Hexp|Hlive].
    { destruct (IH _ _ _ _ _ _ _ Hnd1 Hso2 Hwf2 H) as [lg [-> [Hsub [Hl [Hk Hi]]]]].
      exists (free_log D [e] ++ lg). rewrite app_assoc. splits; auto.
      - change (e :: l) with ([e] ++ l). eapply subseq_app in Hsub; [|apply (sub_nil [])]. cbn in Hsub.
        clear -Hsub. revert l' Hsub. induction kept as [|k kept IHk]; intros l' Hsub; cbn in *; [now constructor|].
        inversion Hsub; subst; try (constructor; auto; fail).
      - intros x [<-|Hx].
        + rewrite acts_app, (acts_free_in [e]); cbn; auto; [|repeat constructor; cbn; tauto]. rewrite Hi by exact He. rewrite app_nil_r.
          apply o_expired; auto. intro Hin. apply in_map_iff in Hin as [z [Ez Hz]].
          destruct (subseq_in _ _ _ Hsub Hz) as [w [Hw [Ew _]]]. apply He. rewrite <- Ez, Ew. now apply in_ids.
        + rewrite acts_app, acts_free_notin; [apply Hl; exact Hx|]. cbn. intros [E|[]]. apply He. rewrite E. apply in_ids. apply in_or_app. now right.
      - intros x Hx. rewrite acts_app, acts_free_notin; [apply Hk; exact Hx|]. cbn. intros [E|[]]. apply He. rewrite E. apply in_ids. apply in_or_app. now left.
      - intros i Hni. rewrite map_app, in_app_iff in Hni. cbn in Hni.
        rewrite acts_app, acts_free_notin; [apply Hi|]; [rewrite map_app, in_app_iff; tauto|cbn; tauto]. }
    destruct (Nat.leb_spec u (ev_start D e)) as [Hfut|Hact].
    { injection H as <- <- <- <-. exists []. rewrite app_nil_r. splits; auto using subseq_refl.
      - intros x Hx. cbn. apply o_future; auto.
        + destruct Hx as [<-|Hx]; [exact Hlive|]. rewrite Forall_forall in Hso1, Hwf2. specialize (Hso1 x Hx). specialize (Hwf2 x Hx). lia.
        + destruct Hx as [<-|Hx]; [exact Hfut|]. rewrite Forall_forall in Hso1. specialize (Hso1 x Hx). lia.
        + intros _. apply in_or_app. right. exact Hx.
      - intros x Hx. split; [reflexivity|]. intros _. apply in_or_app. now left. }
    set (plog := if ev_prepare D e then [APrepare D (ev_id D e)] else []).
    assert (EP : exists prep, (if ev_prepare D e then (option_map (prepared D) (prepare e), log ++ [APrepare D (ev_id D e)]) else (Some e, log))
                = (prep, log ++ plog) /\ (prep = None -> ev_prepare D e = true) /\
                  forall e1, prep = Some e1 -> same e1 e /\ ev_prepare D e1 = false).
    { unfold plog. destruct (ev_prepare D e) eqn:Ep.
      - exists (option_map (prepared D) (prepare e)). splits; auto. intros e1 He1.
        destruct (prepare e) as [e0|] eqn:E0; [|discriminate]. cbn in He1. injection He1 as <-.
        split; [|reflexivity]. exact (proj1 KEEP e e0 E0).
      - exists (Some e). rewrite app_nil_r. splits; auto; [discriminate|]. intros e1 [= <-]. auto using same_refl. }
    destruct EP as [prep [Eprep [Hnone Hsome]]]. rewrite Eprep in H. clear Eprep.
    assert (Hids : forall x, In x kept \/ In x l -> ev_id D x <> ev_id D e).
    { intros x Hx E. apply He. rewrite <- E. apply in_ids. apply in_or_app. exact Hx. }
    assert (Hplog : acts_of (ev_id D e) plog = plog).
    { unfold plog. destruct (ev_prepare D e); cbn; [now rewrite Nat.eqb_refl|reflexivity]. }
    assert (Hplog' : forall i, i <> ev_id D e -> acts_of i plog = []).
    { intros i Hni. unfold plog. destruct (ev_prepare D e); cbn; [|reflexivity]. destruct (Nat.eqb_spec (ev_id D e) i); [congruence|reflexivity]. }
    destruct prep as [e1|].
    2:{ injection H as <- <- <- <-. exists (plog ++ free_log D (kept ++ e :: l)). rewrite app_assoc. splits; auto using sub_nil.
        - intros x Hx. rewrite acts_app, acts_free_in by (auto; apply in_or_app; now right).
          destruct (Nat.leb_spec (ev_end D x) s) as [Hxe|Hxe].
          + assert (x <> e) by (intros ->; lia). destruct Hx as [<-|Hx]; [congruence|].
            rewrite Hplog' by auto. apply o_expired; auto.
          + apply o_unreached; auto. destruct Hx as [<-|Hx].
            * right. split; [auto|]. rewrite Hplog. unfold plog. now rewrite Hnone.
            * left. now rewrite Hplog' by auto.
        - intros x Hx. rewrite acts_app, acts_free_in by (auto; apply in_or_app; now left).
          rewrite Hplog' by auto. split; [reflexivity|discriminate].
        - intros i Hni. rewrite acts_app, acts_free_notin by exact Hni. rewrite Hplog'; [reflexivity|].
          intros ->. apply Hni. apply in_ids. apply in_or_app. right. now left. }
    destruct (Hsome e1 eq_refl) as [Hs1 Hp1]. clear Hnone Hsome.
    destruct (call_generate F D generate s u out e1) as [[[out2 e2] ok2]|] eqn:EG; [|discriminate]. cbn [bind] in H.
    assert (Hs2 : same e2 e /\ ev_prepare D e2 = false).
    { unfold call_generate in EG.
      destruct (need (ev_start D e1 <=? Nat.min u (ev_end D e1))); [|discriminate]. cbn [bind] in EG.
      destruct (need (_ <=? length out)); [|discriminate]. cbn [bind] in EG.
      destruct (generate _ _ _ e1) as [[[o' e'] okk]|] eqn:Eg; [|discriminate]. cbn [bind] in EG. injection EG as <- <- <-.
      destruct (proj2 KEEP _ _ _ _ _ _ _ Eg) as [Hs Hp]. split; [now apply same_trans with e1|congruence]. }
    destruct Hs2 as [Hs2 Hp2]. destruct Hs1 as [I1 [S1 [T1 _]]].
    set (glog := [AGenerate D (ev_id D e) (s - ev_start D e) (Nat.min u (ev_end D e) - ev_start D e)]).
    assert (EGL : [AGenerate D (ev_id D e1) (if ev_start D e1 <? s then s - ev_start D e1 else 0)
                     (Nat.min u (ev_end D e1) - ev_start D e1)] = glog).
    { unfold glog. rewrite I1, S1, T1. f_equal. f_equal. destruct (Nat.ltb_spec (ev_start D e) s); lia. }
    rewrite EGL in H. clear EGL.
    assert (Hglog : acts_of (ev_id D e) glog = glog) by (cbn; now rewrite Nat.eqb_refl).
    assert (Hglog' : forall i, i <> ev_id D e -> acts_of i glog = []).
    { intros i Hni. cbn. destruct (Nat.eqb_spec (ev_id D e) i); [congruence|reflexivity]. }
    assert (Hnd2 : NoDup (map (ev_id D) (kept ++ e2 :: l))).
    { rewrite map_app in *. cbn [map]. rewrite (proj1 Hs2). exact Hnd0. }
    assert (Hrange : s - ev_start D e <= Nat.min u (ev_end D e) - ev_start D e) by lia.
    destruct ok2.
    + destruct (IH out2 (kept ++ [e2]) ((log ++ plog) ++ glog) ok out' l' log') as [lg [-> [Hsub [Hl [Hk Hi]]]]]; auto.
      { rewrite <- app_assoc. exact Hnd2. }
      exists (plog ++ glog ++ lg). rewrite !app_assoc. splits; auto.
      * rewrite <- app_assoc in Hsub. cbn in Hsub.
        assert (A : forall k m : list event, subseq m (k ++ e2 :: l) -> subseq m (k ++ e :: l)).
        { induction k as [|x k IHk]; intros m Hm; cbn in *.
          - inversion Hm; subst; [constructor|now apply sub_skip|]. apply sub_keep; auto. eapply same_trans; eauto.
          - inversion Hm; subst; [constructor|apply sub_skip; auto|apply sub_keep; auto]. }
        now apply A.
      * intros x [<-|Hx].
        -- rewrite <- app_assoc, acts_app, acts_app, Hplog, Hglog.
           destruct (Hk e2) as [Hk1 Hk2]; [apply in_or_app; right; now left|]. rewrite (proj1 Hs2) in Hk1. rewrite Hk1.
           eapply o_active with (e' := e2); auto.
        -- rewrite <- app_assoc, acts_app, acts_app, Hplog', Hglog' by auto. apply Hl. exact Hx.
      * intros x Hx. rewrite <- app_assoc, acts_app, acts_app, Hplog', Hglog' by auto. apply Hk. apply in_or_app. now left.
      * intros i Hni. rewrite <- app_assoc. assert (i <> ev_id D e) by (intros ->; apply Hni, in_ids, in_or_app; right; now left).
        rewrite acts_app, acts_app, Hplog', Hglog' by auto. cbn. apply Hi. rewrite <- app_assoc. cbn.
        rewrite map_app in *. cbn in *. rewrite (proj1 Hs2). exact Hni.
    + injection H as <- <- <- <-. exists (plog ++ glog ++ free_log D (kept ++ e2 :: l)). rewrite !app_assoc. splits; auto using sub_nil.
      * intros x [<-|Hx]; rewrite <- app_assoc, acts_app, acts_app.
        -- rewrite Hplog, Hglog. rewrite <- (proj1 Hs2) at 1. rewrite acts_free_in by (auto; apply in_or_app; right; now left).
           eapply o_active with (e' := e2); auto. discriminate.
        -- rewrite Hplog', Hglog' by auto. rewrite acts_free_in by (auto; apply in_or_app; right; now right). cbn [app].
           destruct (Nat.leb_spec (ev_end D x) s) as [Hxe|Hxe]; [apply o_expired; auto|]. apply o_unreached; auto.
      * intros x Hx. rewrite <- app_assoc, acts_app, acts_app, Hplog', Hglog' by auto.
        rewrite acts_free_in by (auto; apply in_or_app; now left). split; [reflexivity|discriminate].
      * intros i Hni. assert (i <> ev_id D e) by (intros ->; apply Hni, in_ids, in_or_app; right; now left).
        rewrite <- app_assoc, acts_app, acts_app, Hplog', Hglog' by auto. rewrite acts_free_notin; [reflexivity|].
        rewrite map_app in *. cbn in *. now rewrite (proj1 Hs2).
Qed.

(** runs on lists *)
Fixpoint run_list (t : nat) (blocks : list (nat * list F)) (l : list event) : option (bool * list (list F) * nat * list event * list (action D)) :=
  match blocks with
  | [] => Some (true, [], t, l, [])
  | (u, out) :: rest =>
    '(ok, out, l, log) <- seq_list t u out [] l [] ;;
    if (ok : bool) then
      '(ok, outs, u, l, log') <- run_list u rest l ;;
      Some (ok, out :: outs, u, l, log ++ log')
    else Some (false, [out], u, l, log)
  end.

Lemma run_list_correct blocks : forall t h head L,
  represents D h head L ->
  match run_list t blocks (map snd L) with
  | None => run_blocks F D prepare generate t blocks head h = None
  | Some (ok, outs, u, l, log) =>
    exists r L', run_blocks F D prepare generate t blocks head h = Some r /\
      rr_ok F D r = ok /\ rr_outs F D r = outs /\ rr_end F D r = u /\ rr_log F D r = log /\
      represents D (rr_heap F D r) (rr_head F D r) L' /\ map snd L' = l /\ incl (addrs D L') (addrs D L) /\
      (forall q, In q (addrs D L) -> ~ In q (addrs D L') -> nodes D (rr_heap F D r) q = None) /\
      (forall q, ~ In q (addrs D L) -> nodes D (rr_heap F D r) q = nodes D h q)
  end.
Proof.
  induction blocks as [|[u out] blocks IH]; intros t h head L HR.
  - cbn. eexists. exists L. splits; try reflexivity; auto; cbn.
    + now intros q Hq.
    + intros q Hq Hq'. contradiction.
  - cbn [run_list run_blocks]. pose proof (seq_correct F D prepare generate h head L t u out HR) as HS.
    destruct (seq_list t u out [] (map snd L) []) as [[[[ok out'] l'] log']|]; cbn [bind].
    + destruct HS as [r [Er [A [B [C [L' [El [HR' [Hi [Hg [Hf Hfr]]]]]]]]]]]. rewrite Er. cbn [bind]. rewrite A. destruct ok.
      * specialize (IH u _ _ _ HR'). rewrite El in IH.
        destruct (run_list u blocks l') as [[[[[ok2 outs] u2] l2] log2]|]; cbn [bind].
        -- destruct IH as [r2 [L2 [E2 [A2 [B2 [C2 [D2 [HR2 [El2 [Hi2 [Hg2 Hf2]]]]]]]]]]]. rewrite E2. cbn [bind].
           eexists. exists L2. splits; try reflexivity; cbn; auto; try congruence.
           ++ intros q Hq. auto.
           ++ intros q Hq Hq'. destruct (in_dec Nat.eq_dec q (addrs D L')); [auto|]. rewrite Hf2 by auto. auto.
           ++ intros q Hq. rewrite Hf2; [auto|]. intro X. apply Hq. auto.
        -- now rewrite IH.
      * eexists. exists L'. splits; try reflexivity; cbn [rr_ok rr_outs rr_end rr_log rr_heap rr_head]; auto; congruence.
    + now rewrite HS.
Qed.

Lemma tiles_app i b g2 c : forall g1 a, tiles D i a b g1 -> tiles D i b c g2 -> tiles D i a c (g1 ++ g2).
Proof.
  induction g1 as [|[j|j x y|e] g1 IH]; cbn; intros a H1 H2; try contradiction; [now subst|].
  destruct H1 as [A [B [C H]]]. splits; auto.
Qed.

Lemma run_list_life blocks : forall t l ok outs u l' log,
  ascending F t blocks -> NoDup (map (ev_id D) l) -> sorted D l -> Forall (fun e => ev_start D e <= ev_end D e) l ->
  run_list t blocks l = Some (ok, outs, u, l', log) ->
  t <= u /\ subseq l' l /\ (forall e, In e l -> life D e t u ok l' (acts_of (ev_id D e) log)) /\
  (forall i, ~ In i (map (ev_id D) l) -> acts_of i log = []).
Proof.
  induction blocks as [|[u1 out] blocks IH]; intros t l ok outs u l' log Hasc Hnd Hso Hwf H.
  - cbn in H. injection H as <- <- <- <- <-. splits; auto using subseq_refl.
    intros e He. exists e, [], [], [], (t - ev_start D e). cbn. splits; auto using same_refl; [intros _ Hlt; lia].
  - cbn [run_list] in H. destruct Hasc as [Ht Hasc].
    destruct (seq_list t u1 out [] l []) as [[[[ok1 out1] l1] log1]|] eqn:E1; [|discriminate]. cbn [bind] in H.
    destruct (seq_list_outcome t u1 Ht l out [] [] ok1 out1 l1 log1 Hnd Hso Hwf E1) as [lg [El [Hsub [Hl [_ Hi]]]]].
    cbn in El. subst lg. cbn [app] in Hsub, Hi.
    destruct ok1.
    + destruct (run_list u1 blocks l1) as [[[[[ok2 outs2] u2] l2] log2]|] eqn:E2; [|discriminate]. cbn [bind] in H.
      injection H as <- <- <- <- <-.
      assert (Hnd1 := subseq_nodup _ _ Hsub Hnd). assert (Hso1 := subseq_sorted _ _ Hsub Hso).
      assert (Hwf1 : Forall (fun e => ev_start D e <= ev_end D e) l1).
      { apply Forall_forall. intros x Hx. destruct (subseq_in _ _ _ Hsub Hx) as [y [Hy [_ [Hy1 [Hy2 _]]]]].
        rewrite Forall_forall in Hwf. specialize (Hwf y Hy). lia. }
      destruct (IH u1 l1 ok2 outs2 u2 l2 log2 Hasc Hnd1 Hso1 Hwf1 E2) as [Hu [Hsub2 [Hl2 Hi2]]].
      splits; [lia| | |].
      * clear - Hsub Hsub2 prepare generate KEEP. revert l2 Hsub2. induction Hsub; intros l2 H2.
        -- inversion H2; constructor.
        -- apply sub_skip. auto.
        -- inversion H2; subst; [constructor|apply sub_skip; auto|]. apply sub_keep; auto. eapply same_trans; eauto.
      * intros e He. rewrite acts_app. specialize (Hl e He). rewrite Forall_forall in Hwf. specialize (Hwf e He).
        destruct Hl as [Hend Ha Hgone|Hend Hfut Ha Hin|e' Hend Hst Hsame Hrng Ha Hp Hin|Hc].
        -- rewrite Ha. rewrite Hi2 by exact Hgone. exists e, [], [], (free_log D [e]), (t - ev_start D e). cbn [app tiles].
           rewrite app_nil_r. splits; auto using same_refl.
           { intros _ Hlt. lia. }
           right. splits; auto; [|intros _; lia]. intro Hin. apply Hgone. apply in_map_iff in Hin as [z [Ez Hz]].
           destruct (subseq_in _ _ _ Hsub2 Hz) as [w [Hw [Ew _]]]. rewrite <- Ez, Ew. now apply in_ids.
        -- rewrite Ha. cbn [app]. specialize (Hin eq_refl). specialize (Hl2 e Hin).
           destruct Hl2 as [e2 [prep [gens [tail [v [A [B [C [P [T [Z [G [V W]]]]]]]]]]]]].
           exists e2, prep, gens, tail, v. splits; auto.
           { replace (t - ev_start D e) with (u1 - ev_start D e) by lia. exact T. }
           { intro. apply Z. lia. }
           { intros Hok Hlt. destruct (Nat.leb_spec (ev_end D e) u1).
             - rewrite (Z H) in T. cbn in T. lia.
             - apply V; auto. }
        -- specialize (Hin eq_refl). specialize (Hl2 e' Hin). rewrite app_nil_r in Ha. rewrite (proj1 Hsame) in Hl2.
           destruct Hl2 as [e2 [prep [gens [tail [v [A [B [C [P [T [Z [G [V W]]]]]]]]]]]]].
           destruct Hsame as [I1 [S1 [T1 F1]]].
           assert (Hprep : prep = []) by (destruct C as [|[C _]]; [auto|congruence]). subst prep. rewrite I1, S1, T1 in *.
           exists e2, (if ev_prepare D e then [APrepare D (ev_id D e)] else []),
             (AGenerate D (ev_id D e) (t - ev_start D e) (Nat.min u1 (ev_end D e) - ev_start D e) :: gens), tail,
             (if Nat.leb (ev_end D e) u1 then ev_end D e - ev_start D e else v).
           splits; auto.
           { rewrite Ha, A. cbn [app]. now rewrite <- !app_assoc. }
           { apply same_trans with e'; [exact B|]. unfold SeqLifeSpec.same. auto. }
           { destruct (ev_prepare D e); auto. }
           { intros -> _. discriminate. }
           { cbn [tiles]. splits; auto. destruct (Nat.leb_spec (ev_end D e) u1).
             - rewrite Z by auto. cbn. lia.
             - replace (Nat.min u1 (ev_end D e) - ev_start D e) with (u1 - ev_start D e) by lia. exact T. }
           { intro. lia. }
           { right. destruct (Nat.leb_spec (ev_end D e) u1); [lia|]. destruct G as [->|G]; [|exact G]. cbn in T. lia. }
           { intros Hok _. destruct (Nat.leb_spec (ev_end D e) u1); [lia|]. rewrite V by auto. reflexivity. }
        -- discriminate.
      * intros i Hni. rewrite acts_app, Hi, Hi2; auto. intro X. apply Hni. apply in_map_iff in X as [z [Ez Hz]].
        destruct (subseq_in _ _ _ Hsub Hz) as [w [Hw [Ew _]]]. rewrite <- Ez, Ew. now apply in_ids.
    + injection H as <- <- <- <- <-. splits; [lia|exact Hsub| |exact Hi].
      intros e He. specialize (Hl e He).
      assert (Hg : l1 = []).
      { clear -E1. revert E1. generalize (@nil event) at 1. generalize (@nil (action D)). intros lg kept. revert out kept lg.
        induction l as [|x l IHl]; intros out kept lg H; cbn [SeqSpec.seq_list] in H; [discriminate|].
        destruct (_ <=? _); [eapply IHl; exact H|]. destruct (_ <=? _); [discriminate|].
        destruct (if ev_prepare D x then _ else _) as [[x1|] lg1]; [|congruence].
        destruct (call_generate _ _ _ _ _ _ _) as [[[o2 x2] k]|]; [|discriminate]. cbn [bind] in H.
        destruct k; [eapply IHl; exact H|congruence]. }
      destruct Hl as [Hend Ha Hgone|Hend Hfut Ha Hin|e' Hend Hst Hsame Hrng Ha Hp Hin|Hc Hend Ha].
      * exists e, [], [], (free_log D [e]), (t - ev_start D e). cbn [app tiles]. splits; auto using same_refl; [discriminate|].
        right. splits; auto. discriminate.
      * exists e, [], [], (free_log D [e]), (t - ev_start D e). cbn [app tiles]. splits; auto using same_refl; [discriminate|].
        right. subst l1. splits; auto; discriminate.
      * exists e', (if ev_prepare D e then [APrepare D (ev_id D e)] else []),
             [AGenerate D (ev_id D e) (t - ev_start D e) (Nat.min u1 (ev_end D e) - ev_start D e)], (free_log D [e']),
             (Nat.min u1 (ev_end D e) - ev_start D e). subst l1. splits; auto.
        { destruct (ev_prepare D e); auto. }
        { intros -> _. discriminate. }
        { cbn [tiles]. auto. }
        { intro. lia. }
        { right. lia. }
        { right. splits; auto. discriminate. }
      * subst l1. destruct Ha as [Ha|[Hpp Ha]].
        -- exists e, [], [], (free_log D [e]), (t - ev_start D e). cbn [app tiles]. splits; auto using same_refl; [discriminate|].
           right. splits; auto; discriminate.
        -- exists e, [APrepare D (ev_id D e)], [], (free_log D [e]), (t - ev_start D e). cbn [app tiles]. splits; auto using same_refl; [discriminate|].
           right. splits; auto; discriminate.
Qed.
End Proofs.
