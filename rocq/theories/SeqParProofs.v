From Verif Require Import Base SeqModel SeqSpec SeqListProofs SeqSeqProofs SeqLifeSpec SeqLifeProofs SeqRenderSpec SeqRenderProofs SeqParModel SeqParSpec.

Section Proofs.
Variables (F D K : Type).
Variables (zero : F) (add : F -> F -> F).
Notation event := (event D).
Variable prepare : event -> option event.
Variable generate : nat -> nat -> list F -> event -> option (list F * event * bool).
Variable init : nat -> nat -> list F -> event -> K.
Variable step : K -> K.
Variable done : K -> bool.
Variable result : K -> list F * event * bool.
Notation computes := (computes F D K step done result).
Notation plays := (plays F D prepare generate).
Notation task := (task K).
Notation pstate := (pstate F D K).
Notation render_in := (render_in F D).
Notation ready := (ready F D prepare generate).
Notation frame := (frame F D).
Notation stage := (stage F).
Notation additive := (additive F zero add).
Notation main_step := (main_step F D K zero add init done result).
Notation worker_step := (worker_step F D K step done).
Notation par_run := (par_run F D K zero add init step done result).
Notation add_into := (add_into F add).
Hypothesis IMPL : implements_callbacks F D K prepare generate init step done result.

Lemma computes_next k r : computes k r -> done k = false -> computes (step k) r.
Proof. intros H Hd. inversion H; subst; [congruence|assumption]. Qed.
Lemma computes_final k r : computes k r -> done k = true -> result k = r.
Proof. intros H Hd. inversion H; subst; [reflexivity|congruence]. Qed.

(** what task [t] for event [e] with stage [g] is going to deliver *)
Definition task_ok (s u : nat) (eg : event * stage) (t : task) : Prop :=
  let e := fst eg in let g := snd eg in
  ev_start D e < u /\ s < ev_end D e /\ ev_start D e <= ev_end D e /\
  tk_out_start K t = ev_start D e - s /\
  tk_size K t = Nat.min u (ev_end D e) - ev_start D e - (s - ev_start D e) /\
  exists e', same D e' e /\ ev_prepare D e' = false /\ (u < ev_end D e -> plays e' (u - ev_start D e) g) /\
    computes (tk_state K t) (mapi g (s - ev_start D e) (repeat zero (tk_size K t)), e', true).

Lemma spawn_ok s u e g : s <= u -> s < ev_end D e -> ev_start D e < u -> ev_start D e <= ev_end D e ->
  plays e (s - ev_start D e) g -> exists t, spawn F D K zero init s u e = Some t /\ task_ok s u (e, g) t.
Proof.
  intros Hsu Hend Hst Hwf HP. unfold spawn.
  assert (Hoff : (if s <? ev_start D e then ev_start D e - s else 0) = ev_start D e - s) by (destruct (Nat.ltb_spec s (ev_start D e)); lia).
  assert (Hpos : (if ev_start D e <? s then s - ev_start D e else 0) = s - ev_start D e) by (destruct (Nat.ltb_spec (ev_start D e) s); lia).
  rewrite Hoff, Hpos. destruct (Nat.leb_spec (ev_start D e) (Nat.min u (ev_end D e))); [|lia]. cbn [need bind].
  destruct (Nat.leb_spec (s - ev_start D e) (Nat.min u (ev_end D e) - ev_start D e)); [|lia]. cbn [need bind].
  eexists. split; [reflexivity|]. unfold task_ok. cbn [fst snd tk_out_start tk_size tk_state]. splits; auto.
  set (pos := s - ev_start D e) in *. set (c := Nat.min u (ev_end D e) - ev_start D e) in *.
  assert (HPR : exists e1, (if ev_prepare D e then option_map (prepared D) (prepare e) else Some e) = Some e1 /\ same D e1 e /\
    ev_prepare D e1 = false /\ plays e1 pos g).
  { destruct (ev_prepare D e) eqn:Ep.
    - destruct (plays_prepare F D prepare generate e _ g HP Ep) as [e1 [A [B C]]]. rewrite A. exists (prepared D e1). splits; auto.
    - exists e. splits; auto. unfold same. auto. }
  destruct HPR as [e1 [E1 [S1 [P1 PL1]]]].
  destruct (plays_generate F D prepare generate e1 pos g c (repeat zero (c - pos)) [] PL1 P1) as [e2 [A [B [C P]]]].
  { exact H0. }
  { destruct S1 as [_ [-> [-> _]]]. lia. }
  { now rewrite repeat_length. }
  rewrite !app_nil_r in A. exists e2. splits; auto.
  - destruct B as [B1 [B2 [B3 B4]]], S1 as [X1 [X2 [X3 X4]]]. unfold same. splits; try congruence. auto.
  - intro Hu. replace (u - ev_start D e) with c by lia. exact P.
  - eapply IMPL; eauto.
Qed.

Lemma add_into_mapi g : additive g -> forall block out pos, length block <= length out ->
  block = mapi g pos (repeat zero (length block)) ->
  add_into out block = Some (mapi g pos (firstn (length block) out) ++ skipn (length block) out).
Proof.
  intro HA. induction block as [|b block IH]; intros out pos Hl Hb; [reflexivity|]. destruct out as [|x out]; [cbn in Hl; lia|].
  cbn [length repeat mapi] in Hb. injection Hb as Hb1 Hb2. cbn [SeqParModel.add_into].
  rewrite (IH out (S pos)); [|cbn in Hl; lia|exact Hb2]. cbn [bind length firstn mapi app skipn]. f_equal. f_equal.
  rewrite (HA pos x). now rewrite Hb1 at 1.
Qed.

Lemma merge_ok s u e g t out block e' : s <= u -> additive g -> task_ok s u (e, g) t -> u - s <= length out ->
  block = mapi g (s - ev_start D e) (repeat zero (tk_size K t)) -> result (tk_state K t) = (block, e', true) ->
  merge_at F add out (tk_out_start K t) (firstn (tk_size K t) block) = Some (render_in [(e, g)] s u out).
Proof.
  intros Hsu HA [Hst [Hend [Hwf [Ho [Hs _]]]]] Hlen Hb Hr. cbn [fst snd] in *.
  assert (HL : length block = tk_size K t) by (rewrite Hb, mapi_length, repeat_length; reflexivity).
  rewrite <- HL, firstn_all. unfold merge_at. rewrite Ho.
  destruct (Nat.leb_spec (ev_start D e - s) (length out)); [|lia]. cbn [need bind].
  rewrite (add_into_mapi g HA block (skipn (ev_start D e - s) out) (s - ev_start D e)).
  2: { rewrite skipn_length. lia. }
  2: { rewrite HL. exact Hb. }
  cbn [bind]. f_equal.
  set (n := length block) in *. set (off := ev_start D e - s) in *.
  assert (Eoff : off = ev_start D e - s) by reflexivity. clearbody n off.
  set (a := firstn off out). set (o := firstn n (skipn off out)). set (rest := skipn n (skipn off out)).
  set (m := u - s - (off + n)). set (b := firstn m rest). set (z := skipn m rest).
  assert (Em : m = u - s - (off + n)) by reflexivity. clearbody m.
  assert (Eo : out = (a ++ o ++ b) ++ z).
  { unfold a, b, z. rewrite <- !app_assoc, firstn_skipn. unfold o, rest. now rewrite firstn_skipn, firstn_skipn. }
  assert (Ha : length a = off) by (unfold a; rewrite firstn_length; lia).
  assert (Hlo : length o = n) by (unfold o; rewrite firstn_length, skipn_length; lia).
  assert (Hrest : length rest = length out - off - n) by (unfold rest; rewrite !skipn_length; lia).
  assert (Hlb : length b = m) by (unfold b; rewrite firstn_length; lia).
  assert (Habc : length (a ++ o ++ b) = u - s) by (rewrite !app_length, Ha, Hlo, Hlb; lia).
  unfold SeqRenderProofs.render_in. rewrite Eo at 1 2. rewrite (firstn_exact _ _ _ Habc), (skipn_exact _ _ _ Habc).
  unfold SeqRenderSpec.render. rewrite !mapi_app, <- !app_assoc. rewrite Ha, Hlo. f_equal; [|f_equal].
  - symmetry. apply mapi_id. intros i x Hi. unfold SeqRenderSpec.frame. cbn [fold_left fst snd]. unfold active. bd; cbn; auto; lia.
  - rewrite (mapi_shift g (ev_start D e) o). replace (s - ev_start D e + ev_start D e) with (s + off) by lia. apply mapi_ext.
    intros i x Hi. unfold SeqRenderSpec.frame. cbn [fold_left fst snd]. unfold active. bd; cbn; auto; lia.
  - unfold b, z. rewrite <- (firstn_skipn m rest) at 1. f_equal. symmetry. apply mapi_id. fold b. intros i x Hi.
    unfold SeqRenderSpec.frame. cbn [fold_left fst snd]. unfold active. rewrite Hlb in Hi. bd; cbn; auto; lia.
Qed.

(** invariant of every execution. [act]: the events with a task, [todo]: the others that remain *)
Definition inv (s u : nat) (lp : list (event * stage)) (out : list F) (st : pstate) : Prop :=
  exists act todo,
    (exists pre, map fst lp = pre ++ map fst todo /\ ps_freed F D K st = filter (fun e => ev_end D e <=? s) pre /\ map fst act = filter (fun e => s <? ev_end D e) pre) /\
    ps_list F D K st = map fst todo /\
    Forall2 (task_ok s u) act (ps_tasks F D K st) /\
    (forall t x, s <= t -> frame lp t x = frame (act ++ todo) t x) /\ sorted D (map fst (act ++ todo)) /\
    Forall (fun e => ev_start D e <= ev_end D e) (map fst todo) /\
    Forall (fun eg => s < ev_end D (fst eg) -> plays (fst eg) (s - ev_start D (fst eg)) (snd eg)) todo /\
    Forall (fun eg => additive (snd eg)) (act ++ todo) /\
    match ps_phase F D K st with
    | Distributing => ps_out F D K st = out
    | Merging => Forall (fun eg => u <= ev_start D (fst eg)) todo /\ ps_merged F D K st <= length act /\
        ps_out F D K st = render_in (firstn (ps_merged F D K st) act) s u out /\
        Forall (fun t => done (tk_state K t) = true) (firstn (ps_merged F D K st) (ps_tasks F D K st))
    | Finished => Forall (fun eg => u <= ev_start D (fst eg)) todo /\ ps_out F D K st = render_in act s u out /\
        Forall (fun t => done (tk_state K t) = true) (ps_tasks F D K st)
    | Failed => False
    end.

Lemma forall2_nth {A B} (P : A -> B -> Prop) a b : Forall2 P a b -> forall i y, nth_error b i = Some y -> exists x, nth_error a i = Some x /\ P x y.
Proof.
  induction 1; intros [|i] z Hz; cbn in *; try discriminate; [injection Hz as <-; eauto|]. eauto.
Qed.
Lemma forall2_snoc {A B} (P : A -> B -> Prop) a b x y : Forall2 P a b -> P x y -> Forall2 P (a ++ [x]) (b ++ [y]).
Proof. intros H1 H2. apply Forall2_app; auto. Qed.
Lemma forall2_len {A B} (P : A -> B -> Prop) a b : Forall2 P a b -> length a = length b.
Proof. induction 1; cbn; auto. Qed.
Lemma firstn_snoc {A} (l : list A) n x : nth_error l n = Some x -> firstn (S n) l = firstn n l ++ [x].
Proof. revert n. induction l as [|y l IH]; intros [|n] H; cbn in *; try discriminate; [congruence|]. rewrite (IH n H). reflexivity. Qed.

Lemma render_in_app lp eg s u out : s <= u -> u - s <= length out ->
  render_in (lp ++ [eg]) s u out = render_in [eg] s u (render_in lp s u out).
Proof.
  intros Hsu. revert out. induction lp as [|[e g] lp IH]; intros out Hl.
  - cbn [app]. rewrite (render_in_inactive F D prepare generate []) by (intros ? ? []). reflexivity.
  - cbn [app]. rewrite (render_in_cons F D prepare generate e g (lp ++ [eg])), (render_in_cons F D prepare generate e g lp) by auto.
    rewrite IH; [reflexivity|]. rewrite render_in_length. exact Hl.
Qed.

Lemma sorted_remove (a b : list event) x : sorted D (a ++ x :: b) -> sorted D (a ++ b).
Proof.
  induction a as [|y a IH]; cbn; intros [H1 H2]; [exact H2|]. split; [|auto]. rewrite Forall_app in *. destruct H1 as [H1 H3].
  inversion H3; auto.
Qed.
Lemma sorted_app_r (a b : list event) : sorted D (a ++ b) -> sorted D b.
Proof. induction a; cbn; intro H; [exact H|]. destruct H. auto. Qed.

Lemma frame_app a b t x : frame (a ++ b) t x = frame b t (frame a t x).
Proof. unfold SeqRenderSpec.frame. apply fold_left_app. Qed.

Lemma main_inv s u lp out st : s <= u -> u - s <= length out -> inv s u lp out st ->
  exists st', main_step s u st = Some st' /\ inv s u lp out st'.
Proof.
  intros Hsu Hlen [act [todo [[pre [Hp1 [Hp2 Hp3]]] [El [Ht [Hf [Hso [Hwf [Hpl [Had Hph]]]]]]]]]]. unfold SeqParModel.main_step.
  destruct (ps_phase F D K st) eqn:Eph.
  - rewrite El. destruct todo as [|[e g] todo]; cbn [map fst].
    { eexists. split; [reflexivity|]. exists act, []. cbn. split; [exists pre; auto|]. splits; auto; try (rewrite firstn_O; auto); try lia.
      rewrite (render_in_inactive F D prepare generate []) by (intros ? ? []). exact Hph. }
    apply Forall_cons_iff in Hwf as [Hwf1 Hwf2]. apply Forall_cons_iff in Hpl as [Hpl1 Hpl2]. cbn [fst snd] in *.
    destruct (Nat.leb_spec (ev_end D e) s) as [Hexp|Hlive].
    { eexists. split; [reflexivity|]. exists act, todo. split.
      { exists (pre ++ [e]). cbn [ps_freed map fst]. rewrite !filter_app. cbn [filter]. rewrite (proj2 (Nat.leb_le _ _) Hexp), (proj2 (Nat.ltb_ge _ _) Hexp), app_nil_r, Hp2, <- app_assoc. splits; auto. }
      cbn. splits; auto.
      - intros t x Hs. rewrite Hf by exact Hs. rewrite !frame_app. rewrite frame_cons. f_equal.
        unfold SeqRenderSpec.frame at 1. cbn. unfold active. bd; cbn; auto; lia.
      - rewrite map_app in *. cbn in Hso. now apply sorted_remove with e.
      - rewrite Forall_app in *. destruct Had as [Ha1 Ha2]. inversion Ha2; auto. }
    destruct (Nat.leb_spec u (ev_start D e)) as [Hfut|Hact].
    { eexists. split; [reflexivity|]. exists act, ((e, g) :: todo). cbn. split; [exists pre; auto|]. splits; auto; try (rewrite firstn_O; auto); try lia.
      - constructor; [exact Hfut|]. rewrite map_app in Hso. apply sorted_app_r in Hso. cbn in Hso. destruct Hso as [Hso _].
        apply Forall_forall. intros [e0 g0] Hin. cbn. rewrite Forall_forall in Hso. specialize (Hso e0 (in_map fst _ _ Hin)). lia.
      - rewrite (render_in_inactive F D prepare generate []) by (intros ? ? []). exact Hph. }
    destruct (spawn_ok s u e g Hsu Hlive Hact Hwf1 (Hpl1 Hlive)) as [t [-> Htk]]. cbn [bind].
    eexists. split; [reflexivity|]. exists (act ++ [(e, g)]), todo. split.
    { exists (pre ++ [e]). cbn [ps_freed]. rewrite !filter_app, map_app. cbn [filter map fst]. rewrite (proj2 (Nat.leb_gt _ _) Hlive), (proj2 (Nat.ltb_lt _ _) Hlive), app_nil_r, Hp3, <- app_assoc. splits; auto. }
    cbn. rewrite <- app_assoc. cbn [app]. splits; auto.
    now apply forall2_snoc.
  - destruct Hph as [Hfu [Hm [Ho Hdn]]].
    destruct (nth_error (ps_tasks F D K st) (ps_merged F D K st)) as [t|] eqn:En.
    + destruct (done (tk_state K t)) eqn:Ed.
      * destruct (forall2_nth _ _ _ Ht _ _ En) as [[e g] [Ea Htk]].
        pose proof Htk as [_ [_ [_ [_ [_ [e' [_ [_ [_ Hc]]]]]]]]]. cbn [fst snd] in *.
        pose proof (computes_final _ _ Hc Ed) as Hr. rewrite Hr.
        assert (Hg : additive g).
        { rewrite Forall_app in Had. destruct Had as [Had _]. rewrite Forall_forall in Had. apply (Had (e, g)). eapply nth_error_In. exact Ea. }
        rewrite (merge_ok s u e g t (ps_out F D K st) _ e' Hsu Hg Htk) by (auto; rewrite Ho, render_in_length; exact Hlen).
        cbn [bind]. eexists. split; [reflexivity|]. exists act, todo. cbn [ps_list ps_tasks ps_phase ps_merged ps_out ps_freed]. split; [exists pre; auto|].
        splits; auto.
        -- apply nth_error_lt in Ea. lia.
        -- rewrite (firstn_snoc _ _ _ Ea), render_in_app by auto. now rewrite Ho.
        -- rewrite (firstn_snoc _ _ _ En). apply Forall_app. split; auto.
      * exists st. split; [reflexivity|]. exists act, todo. rewrite Eph. split; [exists pre; auto|]. splits; auto.
    + eexists. split; [reflexivity|]. exists act, todo. cbn [ps_list ps_tasks ps_phase ps_merged ps_out ps_freed]. split; [exists pre; auto|].
      apply nth_error_None in En. pose proof (forall2_len _ _ _ Ht) as HL.
      rewrite (firstn_all2 act) in Ho by lia. rewrite firstn_all2 in Hdn by lia. splits; auto.
  - exists st. split; [reflexivity|]. exists act, todo. rewrite Eph. split; [exists pre; auto|]. splits; auto; apply Hph.
  - contradiction.
Qed.

Lemma forall2_aset {A B} (P : A -> B -> Prop) a b : Forall2 P a b -> forall i y b', aset b i y = Some b' ->
  (forall x y0, nth_error a i = Some x -> nth_error b i = Some y0 -> P x y0 -> P x y) -> Forall2 P a b'.
Proof.
  induction 1; intros [|i] z b' Hs HP; cbn in *; try discriminate.
  - injection Hs as <-. constructor; auto. eapply HP; eauto.
  - destruct (aset l' i z) as [l2|] eqn:E; [|discriminate]. cbn in Hs. injection Hs as <-. constructor; eauto.
Qed.

Lemma worker_inv s u lp out st i : inv s u lp out st -> exists st', worker_step i st = Some st' /\ inv s u lp out st'.
Proof.
  intros [act [todo [Hpre [El [Ht [Hf [Hso [Hwf [Hpl [Had Hph]]]]]]]]]]. unfold SeqParModel.worker_step.
  destruct (nth_error (ps_tasks F D K st) i) as [t|] eqn:En.
  2: { exists st. split; [reflexivity|]. exists act, todo. auto 12. }
  destruct (done (tk_state K t)) eqn:Ed.
  { exists st. split; [reflexivity|]. exists act, todo. auto 12. }
  set (t' := {| tk_out_start := tk_out_start K t; tk_size := tk_size K t; tk_state := step (tk_state K t) |}).
  destruct (aset_some (ps_tasks F D K st) i t' (nth_error_lt _ _ _ En)) as [ts Ets]. rewrite Ets. cbn [bind].
  eexists. split; [reflexivity|]. exists act, todo. cbn [ps_list ps_tasks ps_phase ps_merged ps_out ps_freed]. split; [exact Hpre|].
  assert (Ht' : Forall2 (task_ok s u) act ts).
  { eapply forall2_aset; [exact Ht|exact Ets|]. intros [e g] y0 Ha Hb [A1 [A2 [A3 [A4 [A5 [e' [B1 [B2 [B3 B4]]]]]]]]].
    rewrite En in Hb. injection Hb as <-. unfold task_ok. cbn [fst snd t' tk_out_start tk_size tk_state] in *. splits; auto.
    exists e'. splits; auto. apply computes_next; auto. }
  assert (Hd : forall n, Forall (fun t => done (tk_state K t) = true) (firstn n (ps_tasks F D K st)) ->
    Forall (fun t => done (tk_state K t) = true) (firstn n ts)).
  { intros n Hn. apply Forall_forall. intros x Hx. apply In_nth_error in Hx as [j Hj].
    assert (j < n) by (apply nth_error_lt in Hj; rewrite firstn_length in Hj; lia). rewrite nth_error_firstn in Hj by lia.
    pose proof (aset_get _ _ _ _ j Ets) as G. rewrite Hj in G. destruct (Nat.eqb_spec j i).
    - subst j. exfalso. rewrite Forall_forall in Hn. rewrite (Hn t) in Ed; [discriminate|].
      apply nth_error_In with i. rewrite nth_error_firstn by lia. exact En.
    - rewrite Forall_forall in Hn. apply Hn. apply nth_error_In with j. rewrite nth_error_firstn by lia. congruence. }
  splits; auto. destruct (ps_phase F D K st); auto.
  - destruct Hph as [H1 [H2 [H3 H4]]]. splits; auto.
  - destruct Hph as [H1 [H2 H3]]. splits; auto. rewrite <- (firstn_all ts). apply Hd. now rewrite (aset_length _ _ _ _ Ets), firstn_all.
Qed.

Lemma run_inv s u lp out sched : s <= u -> u - s <= length out -> forall st, inv s u lp out st ->
  exists st', par_run s u sched st = Some st' /\ inv s u lp out st'.
Proof.
  intros Hsu Hlen. induction sched as [|[|i] sched IH]; intros st HI; cbn [SeqParModel.par_run].
  - eauto.
  - destruct (main_inv s u lp out st Hsu Hlen HI) as [st' [-> HI']]. cbn [bind]. auto.
  - destruct (worker_inv s u lp out st i HI) as [st' [-> HI']]. cbn [bind]. auto.
Qed.

Lemma init_inv s u lp out : ready s lp -> Forall (fun eg => additive (snd eg)) lp -> inv s u lp out (par_init F D K out (map fst lp)).
Proof.
  intros [Hso [Hwf Hpl]] Had. exists [], lp. cbn. split; [exists []; auto|]. splits; auto.
Qed.

(** in every finished execution *)
Lemma finished s u lp out st : s <= u -> inv s u lp out st -> ps_phase F D K st = Finished ->
  ps_out F D K st = render_in lp s u out /\
  exists lp', par_events F D K result st = map fst lp' /\ ready u lp' /\ Forall (fun eg => additive (snd eg)) lp' /\
    (forall t x, u <= t -> frame lp' t x = frame lp t x).
Proof.
  intros Hsu [act [todo [Hpre [El [Ht [Hf [Hso [Hwf [Hpl [Had Hph]]]]]]]]]] E. rewrite E in Hph. destruct Hph as [Hfu [Ho Hdn]]. split.
  - rewrite Ho. unfold SeqRenderProofs.render_in. f_equal. unfold SeqRenderSpec.render. apply mapi_ext. intros i x Hi. rewrite Hf by lia.
    rewrite frame_app. symmetry. unfold SeqRenderSpec.frame at 1. apply fold_left_id_in. intros acc [e0 g0] Hin. unfold active. cbn [fst].
    rewrite Forall_forall in Hfu. specialize (Hfu _ Hin). cbn in Hfu. rewrite firstn_length in Hi. bd; cbn; auto; lia.
  - unfold par_events. rewrite El.
    assert (A : exists act', map (fun t => snd (fst (result (tk_state K t)))) (ps_tasks F D K st) = map fst act' /\
      Forall2 (fun a b => same D (fst b) (fst a) /\ snd b = snd a /\ ev_start D (fst a) <= ev_end D (fst a) /\
        (u < ev_end D (fst a) -> plays (fst b) (u - ev_start D (fst a)) (snd a))) act act').
    { clear -Ht Hdn. induction Ht as [|[e g] t act ts Htk Ht IH]; [exists []; auto|]. inversion Hdn; subst.
      destruct (IH H2) as [act' [B C]]. destruct Htk as [_ [_ [Hw [_ [_ [e' [S1 [P1 [PL Hc]]]]]]]]]. cbn [fst snd] in *.
      exists ((e', g) :: act'). cbn [map fst]. split.
      - rewrite (computes_final _ _ Hc H1). cbn. f_equal. exact B.
      - constructor; auto. }
    destruct A as [act' [Ea HA]]. exists (act' ++ todo). rewrite map_app, Ea. splits; auto.
    + unfold SeqRenderProofs.ready. rewrite map_app. splits.
      * clear -HA Hso. rewrite map_app in Hso. revert Hso.
        assert (X : map (ev_start D) (map fst act') = map (ev_start D) (map fst act)).
        { induction HA as [|a b x y Hxy HA IH]; [reflexivity|]. cbn. destruct Hxy as [[_ [Hs _]] _]. now rewrite Hs, IH. }
        revert X. generalize (map fst act') (map fst act) (map fst todo). clear.
        induction l as [|x l IH]; intros [|y l'] r E H; try discriminate; auto. cbn in *. injection E as E1 E2. destruct H as [H1 H2].
        split; [|eapply IH; eauto]. apply Forall_forall. intros z Hz. rewrite Forall_forall in H1. rewrite E1.
        apply in_app_iff in Hz as [Hz|Hz].
        -- apply (in_map (ev_start D)) in Hz. rewrite E2 in Hz. apply in_map_iff in Hz as [w [<- Hw]]. apply H1. apply in_or_app. now left.
        -- apply H1. apply in_or_app. now right.
      * apply Forall_app. split; [|exact Hwf]. clear -HA. induction HA as [|a b x y Hxy HA IH]; cbn; constructor; auto.
        destruct Hxy as [[_ [Hs [He _]]] [_ [Hw _]]]. now rewrite Hs, He.
      * apply Forall_app. split.
        -- clear -HA. induction HA as [|a b x y Hxy HA IH]; constructor; auto.
           destruct Hxy as [[_ [Hs [He _]]] [Hg [Hw HP]]]. rewrite Hs, He, Hg. exact HP.
        -- apply Forall_forall. intros [e0 g0] Hin Hend. cbn [fst snd] in *. rewrite Forall_forall in Hfu, Hpl.
           specialize (Hfu _ Hin). specialize (Hpl _ Hin). cbn [fst snd] in *.
           replace (u - ev_start D e0) with (s - ev_start D e0) by lia. apply Hpl. lia.
    + rewrite Forall_app in *. destruct Had as [Ha Hb]. split; [|exact Hb]. clear -HA Ha. induction HA as [|a b x y Hxy HA IH]; constructor.
      * destruct Hxy as [_ [-> _]]. now inversion Ha.
      * inversion Ha; auto.
    + intros t x Hx. rewrite Hf by lia. rewrite !frame_app. f_equal. clear -HA. revert x.
      induction HA as [|[ea ga] [eb gb] y z Hxy HA IH]; intro v; [reflexivity|].
      cbn [fst snd] in Hxy. destruct Hxy as [[_ [Hs [He _]]] [Hg _]]. subst gb.
      rewrite (frame_cons F D eb ga z), (frame_cons F D ea ga y). rewrite IH. f_equal.
      unfold SeqRenderSpec.frame. cbn [fold_left fst snd]. unfold active. rewrite Hs, He. reflexivity.
Qed.

(** exactly the ended events have been freed, the others remain in order *)
Lemma finished_events s u lp out st : s < u -> ready s lp -> inv s u lp out st -> ps_phase F D K st = Finished ->
  ps_freed F D K st = filter (fun e => ev_end D e <=? s) (map fst lp) /\ Forall2 (same D) (par_events F D K result st) (filter (fun e => s <? ev_end D e) (map fst lp)).
Proof.
  intros Hsu [_ [Hwf0 _]] [act [todo [[pre [Hp1 [Hp2 Hp3]]] [El [Ht [_ [_ [Hwf [_ [_ Hph]]]]]]]]]] E. rewrite E in Hph. destruct Hph as [Hfu [_ Hdn]].
  assert (L : Forall (fun e => s < ev_end D e) (map fst todo)).
  { apply Forall_forall. intros e He. apply in_map_iff in He as [[e0 g0] [<- Hin]]. rewrite Forall_forall in Hfu, Hwf. specialize (Hfu _ Hin). specialize (Hwf _ (in_map fst _ _ Hin)). cbn [fst] in *. lia. }
  assert (F1 : filter (fun e => ev_end D e <=? s) (map fst todo) = []).
  { clear -L. induction L as [|x l Hx L IH]; cbn [filter]; [reflexivity|]. rewrite (proj2 (Nat.leb_gt _ _) Hx). exact IH. }
  assert (F2 : filter (fun e => s <? ev_end D e) (map fst todo) = map fst todo).
  { clear -L. induction L as [|x l Hx L IH]; cbn [filter]; [reflexivity|]. rewrite (proj2 (Nat.ltb_lt _ _) Hx). now f_equal. }
  rewrite Hp1, !filter_app, F1, F2, app_nil_r, <- Hp3. split; [exact Hp2|]. unfold par_events. rewrite El. apply Forall2_app.
  - clear -Ht Hdn. induction Ht as [|[e g] t act ts Htk Ht IH]; [constructor|]. inversion Hdn; subst. cbn [map fst]. constructor; [|apply IH; assumption].
    destruct Htk as [_ [_ [_ [_ [_ [e' [S1 [_ [_ Hc]]]]]]]]]. rewrite (computes_final _ _ Hc H1). exact S1.
  - clear. induction (map fst todo); constructor; auto. unfold same. auto.
Qed.

Lemma par_blocks_render blocks : forall t lp, ready t lp -> Forall (fun eg => additive (snd eg)) lp -> blocks_fit F t blocks ->
  forall outs l', par_blocks F D K zero add init step done result t blocks (map fst lp) outs l' -> outs = render_blocks F D lp t blocks.
Proof.
  assert (EXT : forall blocks t lp lp', blocks_fit F t blocks -> (forall i x, t <= i -> frame lp' i x = frame lp i x) ->
    render_blocks F D lp' t blocks = render_blocks F D lp t blocks).
  { clear. induction blocks as [|[u out] blocks IH]; intros t lp lp' HB H; cbn; [reflexivity|]. destruct HB as [Htu [_ HB]].
    f_equal; [|apply IH; auto; intros; apply H; lia]. f_equal. unfold SeqRenderSpec.render. apply mapi_ext. intros; apply H; lia. }
  induction blocks as [|[u out] blocks IH]; intros t lp HR Had HB outs l' HP.
  - inversion HP; subst. reflexivity.
  - destruct HB as [Htu [Hlen HB]]. inversion HP as [|? ? ? ? ? sched s ? ? Er Eph HP']; subst.
    destruct (run_inv t u lp out sched (Nat.lt_le_incl _ _ Htu) Hlen _ (init_inv t u lp out HR Had)) as [s' [Er' HI]].
    rewrite Er in Er'. injection Er' as <-.
    destruct (finished t u lp out s (Nat.lt_le_incl _ _ Htu) HI Eph) as [Ho [lp' [Ee [HR' [Had' Hf]]]]].
    rewrite Ee in HP'. cbn [render_blocks]. rewrite Ho. f_equal.
    rewrite (IH u lp' HR' Had' HB _ _ HP'). apply EXT; auto.
Qed.

(** progress: from any reachable state the call can be completed *)
Lemma can_finish s u lp out : s <= u -> u - s <= length out -> forall st, inv s u lp out st ->
  exists sched st', par_run s u sched st = Some st' /\ ps_phase F D K st' = Finished.
Proof.
  intros Hsu Hlen.
  assert (APP : forall a b st, par_run s u (a ++ b) st = (x <- par_run s u a st ;; par_run s u b x)).
  { induction a as [|[|i] a IH]; intros b st; cbn [app SeqParModel.par_run bind]; [reflexivity| |].
    - destruct (main_step s u st); cbn [bind]; auto.
    - destruct (worker_step i st); cbn [bind]; auto. }
  assert (CONT : forall st a st1, par_run s u a st = Some st1 ->
    (exists sched st', par_run s u sched st1 = Some st' /\ ps_phase F D K st' = Finished) ->
    exists sched st', par_run s u sched st = Some st' /\ ps_phase F D K st' = Finished).
  { intros st a st1 Ha [sched [st' [Hb Hc]]]. exists (a ++ sched), st'. split; [|exact Hc]. rewrite APP, Ha. exact Hb. }
  (* merging, by number of tasks left *)
  assert (MERGE : forall n st, inv s u lp out st -> ps_phase F D K st = Merging -> length (ps_tasks F D K st) - ps_merged F D K st <= n ->
    exists sched st', par_run s u sched st = Some st' /\ ps_phase F D K st' = Finished).
  { induction n as [|n IHn]; intros st HI Hph Hn.
    - destruct (nth_error (ps_tasks F D K st) (ps_merged F D K st)) eqn:En; [apply nth_error_lt in En; lia|].
      exists [Main]. cbn [SeqParModel.par_run]. unfold SeqParModel.main_step. rewrite Hph, En. cbn [bind]. eexists. split; reflexivity.
    - destruct (nth_error (ps_tasks F D K st) (ps_merged F D K st)) as [t|] eqn:En.
      2: { exists [Main]. cbn [SeqParModel.par_run]. unfold SeqParModel.main_step. rewrite Hph, En. cbn [bind]. eexists. split; reflexivity. }
      assert (HT : exists r, computes (tk_state K t) r /\ snd r = true).
      { destruct HI as [act [todo [_ [_ [Ht _]]]]]. destruct (forall2_nth _ _ _ Ht _ _ En) as [eg [_ Htk]].
        destruct Htk as [_ [_ [_ [_ [_ [e' [_ [_ [_ Hc]]]]]]]]]. eexists. split; [exact Hc|reflexivity]. }
      destruct HT as [r [Hc Hr]]. remember (tk_state K t) as k eqn:Ek. revert st t Ek HI Hph Hn En.
      induction Hc as [k Hd|k r Hd Hc IHc]; intros st t Ek HI Hph Hn En.
      + destruct (main_inv s u lp out st Hsu Hlen HI) as [st1 [Hm HI1]].
        apply (CONT st [Main] st1); [cbn [SeqParModel.par_run]; rewrite Hm; reflexivity|].
        unfold SeqParModel.main_step in Hm. rewrite Hph, En, <- Ek, Hd in Hm. destruct (result k) as [[blk e'] ok] eqn:Er. cbn in Hr. subst ok.
        destruct (merge_at _ _ _ _ _); [|discriminate]. cbn [bind] in Hm. injection Hm as <-.
        apply IHn; auto. cbn [ps_tasks ps_merged]. lia.
      + destruct (worker_inv s u lp out st (ps_merged F D K st) HI) as [st1 [Hm HI1]].
        apply (CONT st [Worker (ps_merged F D K st)] st1); [cbn [SeqParModel.par_run]; rewrite Hm; reflexivity|].
        unfold SeqParModel.worker_step in Hm. rewrite En, <- Ek, Hd in Hm.
        destruct (aset _ _ _) as [ts|] eqn:Ea; [|discriminate]. cbn [bind] in Hm. injection Hm as <-.
        eapply IHc; [exact Hr| |exact HI1|exact Hph| |].
        2: { cbn [ps_tasks ps_merged]. rewrite (aset_length _ _ _ _ Ea). exact Hn. }
        2: { cbn [ps_tasks ps_merged]. rewrite (aset_get _ _ _ _ (ps_merged F D K st) Ea). now rewrite Nat.eqb_refl. }
        reflexivity. }
  assert (DIST : forall n st, inv s u lp out st -> ps_phase F D K st = Distributing -> length (ps_list F D K st) <= n ->
    exists sched st', par_run s u sched st = Some st' /\ ps_phase F D K st' = Finished).
  { induction n as [|n IHn]; intros st HI Hph Hn; destruct (main_inv s u lp out st Hsu Hlen HI) as [st1 [Hm HI1]];
      (apply (CONT st [Main] st1); [cbn [SeqParModel.par_run]; rewrite Hm; reflexivity|]);
      unfold SeqParModel.main_step in Hm; rewrite Hph in Hm.
    - destruct (ps_list F D K st) as [|e l]; [|cbn in Hn; lia]. injection Hm as <-. eapply MERGE; [exact HI1|reflexivity|apply le_n].
    - destruct (ps_list F D K st) as [|e l]; [injection Hm as <-; eapply MERGE; [exact HI1|reflexivity|apply le_n]|].
      destruct (_ <=? s); [injection Hm as <-; apply IHn; auto; cbn in *; lia|].
      destruct (u <=? _); [injection Hm as <-; eapply MERGE; [exact HI1|reflexivity|apply le_n]|].
      destruct (spawn _ _ _ _ _ _ _ _); [|discriminate]. cbn [bind] in Hm. injection Hm as <-. apply IHn; auto; cbn in *; lia. }
  intros st HI. destruct (ps_phase F D K st) eqn:Eph.
  - eapply DIST; eauto.
  - eapply MERGE; eauto.
  - exists [], st. auto.
  - destruct HI as [act [todo [_ [_ [_ [_ [_ [_ [_ [_ H]]]]]]]]]]. rewrite Eph in H. contradiction.
Qed.
End Proofs.
