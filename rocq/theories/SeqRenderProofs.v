From Verif Require Import Base SeqModel SeqSpec SeqListProofs SeqSeqProofs SeqLifeSpec SeqLifeProofs SeqRenderSpec.

Lemma mapi_length {A} f (l : list A) : forall t, length (mapi f t l) = length l.
Proof. induction l; cbn; intro; auto. Qed.
Lemma mapi_app {A} f (a b : list A) : forall t, mapi f t (a ++ b) = mapi f t a ++ mapi f (t + length a) b.
Proof.
  induction a as [|x a IH]; intro t; cbn; [now rewrite Nat.add_0_r|]. rewrite IH. now rewrite Nat.add_succ_r.
Qed.
Lemma mapi_ext {A} (f g : nat -> A -> A) l : forall t, (forall i x, t <= i < t + length l -> f i x = g i x) -> mapi f t l = mapi g t l.
Proof.
  induction l as [|x l IH]; intros t H; cbn; [reflexivity|]. cbn in H. f_equal; [apply H; lia|]. apply IH. intros; apply H; lia.
Qed.
Lemma mapi_id {A} (f : nat -> A -> A) l t : (forall i x, t <= i < t + length l -> f i x = x) -> mapi f t l = l.
Proof.
  revert t. induction l as [|x l IH]; intros t H; cbn; [reflexivity|]. cbn in H. f_equal; [apply H; lia|]. apply IH. intros; apply H; lia.
Qed.
Lemma mapi_comp {A} (f g : nat -> A -> A) l : forall t, mapi f t (mapi g t l) = mapi (fun i x => f i (g i x)) t l.
Proof. induction l as [|x l IH]; intro t; cbn; [reflexivity|]. now rewrite IH. Qed.
Lemma mapi_shift {A} (f : nat -> A -> A) d l : forall t, mapi f t l = mapi (fun i x => f (i - d) x) (t + d) l.
Proof.
  induction l as [|x l IH]; intro t; cbn; [reflexivity|]. rewrite (IH (S t)). cbn. f_equal. f_equal. lia.
Qed.

Lemma firstn_exact {A} (a b : list A) n : length a = n -> firstn n (a ++ b) = a.
Proof. intros <-. rewrite firstn_app, Nat.sub_diag, firstn_O, app_nil_r. apply firstn_all. Qed.
Lemma skipn_exact {A} (a b : list A) n : length a = n -> skipn n (a ++ b) = b.
Proof. intros <-. rewrite skipn_app, Nat.sub_diag, skipn_all. reflexivity. Qed.

Section Proofs.
Variables (F D : Type).
Notation event := (event D).
Variable prepare : event -> option event.
Variable generate : nat -> nat -> list F -> event -> option (list F * event * bool).
Notation plays := (plays F D prepare generate).
Notation frame := (frame F D).
Notation render := (render F D).
Notation seq_list := (seq_list F D prepare generate).
Notation stage := (stage F).

Lemma plays_prepare e pos g : plays e pos g -> ev_prepare D e = true ->
  exists e', prepare e = Some e' /\ same D e' e /\ plays (prepared D e') pos g.
Proof.
  intros [R [HR HC]] Hp. destruct (proj1 (HC e pos HR) Hp) as [e' [A [B C]]]. exists e'. splits; auto. exists R. auto.
Qed.
Lemma plays_generate e pos g c o rest : plays e pos g -> ev_prepare D e = false ->
  pos <= c -> c <= ev_end D e - ev_start D e -> length o = c - pos ->
  exists e', generate pos c (o ++ rest) e = Some (mapi g pos o ++ rest, e', true) /\ same D e' e /\ ev_prepare D e' = false /\ plays e' c g.
Proof.
  intros [R [HR HC]] Hp H1 H2 H3. destruct (proj2 (HC e pos HR) Hp c o rest H1 H2 H3) as [e' [A [B [C E]]]].
  exists e'. splits; auto. exists R. auto.
Qed.

Lemma frame_cons e (g : stage) lp t x : frame ((e, g) :: lp) t x = frame lp t (frame [(e, g)] t x).
Proof. reflexivity. Qed.

(** frames [a] to [b] of the output *)
Definition render_in (lp : list (event * stage)) (s u : nat) (out : list F) : list F :=
  render lp s (firstn (u - s) out) ++ skipn (u - s) out.

Lemma render_in_length lp s u out : length (render_in lp s u out) = length out.
Proof.
  unfold render_in, SeqRenderSpec.render. rewrite app_length, mapi_length, <- app_length. now rewrite firstn_skipn.
Qed.

Lemma render_in_cons e g lp s u out : s <= u -> u - s <= length out ->
  render_in ((e, g) :: lp) s u out = render_in lp s u (render_in [(e, g)] s u out).
Proof.
  intros Hsu Hl. unfold render_in at 2. 
  assert (HL : length (render [(e, g)] s (firstn (u - s) out)) = u - s).
  { unfold SeqRenderSpec.render. rewrite mapi_length. rewrite firstn_length. lia. }
  unfold render_in. rewrite (firstn_exact _ _ _ HL), (skipn_exact _ _ _ HL). f_equal.
  unfold SeqRenderSpec.render. rewrite mapi_comp. reflexivity.
Qed.

Lemma render_in_inactive lp s u out : (forall e g, In (e, g) lp -> ev_end D e <= s \/ u <= ev_start D e) -> render_in lp s u out = out.
Proof.
  intro H. unfold render_in, SeqRenderSpec.render. rewrite mapi_id; [apply firstn_skipn|].
  intros i x Hi. rewrite firstn_length in Hi. unfold SeqRenderSpec.frame. apply fold_left_id_in. intros acc [e g] Hin.
  unfold active. cbn [fst]. destruct (H e g Hin); bd; cbn; auto; lia.
Qed.

Lemma call_generate_plays e g s u out : plays e (s - ev_start D e) g -> ev_prepare D e = false ->
  s <= u -> s < ev_end D e -> ev_start D e < u -> ev_start D e <= ev_end D e -> u - s <= length out ->
  exists e', call_generate F D generate s u out e = Some (render_in [(e, g)] s u out, e', true) /\ same D e' e /\
    ev_prepare D e' = false /\ (u < ev_end D e -> plays e' (u - ev_start D e) g).
Proof.
  intros HP Hp Hsu Hend Hst Hwf Hlen. unfold call_generate.
  destruct (Nat.leb_spec (ev_start D e) (Nat.min u (ev_end D e))) as [_|]; [|lia]. cbn [need bind].
  assert (Hoff : (if s <? ev_start D e then ev_start D e - s else 0) = ev_start D e - s) by (destruct (Nat.ltb_spec s (ev_start D e)); lia).
  assert (Hpos : (if ev_start D e <? s then s - ev_start D e else 0) = s - ev_start D e) by (destruct (Nat.ltb_spec (ev_start D e) s); lia).
  rewrite Hoff, Hpos. set (off := ev_start D e - s). assert (Eoff : off = ev_start D e - s) by reflexivity. destruct (Nat.leb_spec off (length out)) as [_|]; [|lia]. cbn [need bind].
  set (pos := s - ev_start D e) in *. set (c := Nat.min u (ev_end D e) - ev_start D e).
  assert (Epos : pos = s - ev_start D e) by reflexivity. assert (Ec : c = Nat.min u (ev_end D e) - ev_start D e) by reflexivity.
  clearbody off pos c.
  set (o := firstn (c - pos) (skipn off out)). set (rest := skipn (c - pos) (skipn off out)).
  assert (Ho : length o = c - pos).
  { unfold o. rewrite firstn_length, skipn_length. lia. }
  replace (skipn off out) with (o ++ rest) by apply firstn_skipn.
  destruct (plays_generate e pos g c o rest HP Hp) as [e' [A [B [C P]]]]; [lia|lia|exact Ho|]. rewrite A. cbn [bind].
  exists e'. splits; auto.
  - f_equal. f_equal. f_equal.
    (* out = a ++ o ++ b ++ z *)
    set (a := firstn off out). set (n := u - s - (off + (c - pos))). assert (En : n = u - s - (off + (c - pos))) by reflexivity. clearbody n. set (b := firstn n rest). set (z := skipn n rest).
    assert (Eo : out = (a ++ o ++ b) ++ z).
    { unfold a, b, z. rewrite <- !app_assoc, firstn_skipn. unfold o, rest. now rewrite firstn_skipn, firstn_skipn. }
    assert (Ha : length a = off) by (unfold a; rewrite firstn_length; lia).
    assert (Hrest : length rest = length out - off - (c - pos)) by (unfold rest; rewrite !skipn_length; lia).
    assert (Hb : length b = n) by (unfold b; rewrite firstn_length; lia).
    assert (Habc : length (a ++ o ++ b) = u - s) by (rewrite !app_length, Ha, Ho, Hb; lia).
    unfold render_in. rewrite Eo at 1 2. rewrite (firstn_exact _ _ _ Habc), (skipn_exact _ _ _ Habc).
    unfold SeqRenderSpec.render. rewrite !mapi_app, <- !app_assoc. rewrite Ha, Ho. f_equal; [|f_equal].
    + symmetry. apply mapi_id. intros i x Hi. unfold SeqRenderSpec.frame. cbn [fold_left fst snd]. unfold active. bd; cbn; auto; lia.
    + rewrite (mapi_shift g (ev_start D e) o pos). replace (pos + ev_start D e) with (s + off) by lia. apply mapi_ext.
      intros i x Hi. unfold SeqRenderSpec.frame. cbn [fold_left fst snd]. unfold active. bd; cbn; auto; lia.
    + unfold b, z. rewrite <- (firstn_skipn n rest) at 1. f_equal. symmetry. apply mapi_id. fold b. intros i x Hi.
      unfold SeqRenderSpec.frame. cbn [fold_left fst snd]. unfold active. rewrite Hb in Hi. bd; cbn; auto; lia.
  - intro Hu. replace (u - ev_start D e) with c by lia. exact P.
Qed.

(** relation between the remaining events and the original list: same frames from [t] on *)
Definition ready (t : nat) (lp : list (event * stage)) : Prop :=
  sorted D (map fst lp) /\ Forall (fun e => ev_start D e <= ev_end D e) (map fst lp) /\
  Forall (fun eg => t < ev_end D (fst eg) -> plays (fst eg) (t - ev_start D (fst eg)) (snd eg)) lp.

Lemma frame_same e e' g lp t x : same D e' e -> frame ((e', g) :: lp) t x = frame ((e, g) :: lp) t x.
Proof. intros [A [B [C _]]]. unfold SeqRenderSpec.frame. cbn [fold_left fst snd]. unfold active. now rewrite B, C. Qed.

Lemma seq_list_render s u : s <= u -> forall lp out kept log,
  ready s lp -> u - s <= length out ->
  exists lp' log', seq_list s u out kept (map fst lp) log = Some (true, render_in lp s u out, kept ++ map fst lp', log') /\
    ready u lp' /\ (forall t x, u <= t -> frame lp' t x = frame lp t x) /\
    (forall e', In e' (map fst lp') -> exists e, In e (map fst lp) /\ ev_start D e' = ev_start D e).
Proof.
  intro Hsu. induction lp as [|[e g] lp IH]; intros out kept log [Hso [Hwf Hpl]] Hlen.
  - exists [], log. cbn [map seq_list]. rewrite app_nil_r. splits; auto.
    + f_equal. f_equal. f_equal. f_equal. symmetry. apply render_in_inactive. intros ? ? [].
    + unfold ready. splits; constructor.
    + intros ? [].
  - cbn [map fst] in *. destruct Hso as [Hso1 Hso2]. inversion Hwf as [|? ? Hwf1 Hwf2]; subst. inversion Hpl as [|? ? Hpl1 Hpl2]; subst.
    cbn [fst snd] in *. cbn [seq_list]. rewrite render_in_cons by (auto; lia).
    destruct (Nat.leb_spec (ev_end D e) s) as [Hexp|Hlive].
    { rewrite (render_in_inactive [(e, g)]) by (intros ? ? [[= <- <-]|[]]; auto).
      destruct (IH out kept (log ++ free_log D [e]) (conj Hso2 (conj Hwf2 Hpl2)) Hlen) as [lp' [log' [A [B [C E]]]]].
      exists lp', log'. splits; auto.
      - intros t x Ht. rewrite C by auto. rewrite frame_cons. f_equal. unfold SeqRenderSpec.frame. cbn. unfold active.
        bd; cbn; auto; lia.
      - intros e' He'. destruct (E e' He') as [e0 [H0 H1]]. exists e0. split; [now right|auto]. }
    destruct (Nat.leb_spec u (ev_start D e)) as [Hfut|Hact].
    { exists ((e, g) :: lp), log. splits; auto.
      - rewrite (render_in_inactive [(e, g)]) by (intros ? ? [[= <- <-]|[]]; auto).
        rewrite render_in_inactive; [reflexivity|]. intros e0 g0 Hin. right. rewrite Forall_forall in Hso1.
        specialize (Hso1 e0 (in_map fst _ _ Hin)). lia.
      - unfold ready. cbn [map fst]. splits; [cbn; auto|auto|].
        apply Forall_forall. intros [e0 g0] Hin Hend. cbn [fst snd] in *.
        assert (Hge : u <= ev_start D e0).
        { destruct Hin as [[= <- <-]|Hin]; [exact Hfut|]. rewrite Forall_forall in Hso1. specialize (Hso1 e0 (in_map fst _ _ Hin)). lia. }
        replace (u - ev_start D e0) with (s - ev_start D e0) by lia.
        rewrite Forall_forall in Hpl. apply (Hpl (e0, g0)); [exact Hin|]. cbn. lia.
      - intros e' He'. exists e'. auto. }
    set (PL := if ev_prepare D e then (option_map (prepared D) (prepare e), log ++ [APrepare D (ev_id D e)]) else (Some e, log)).
    assert (HPL : exists e1 log1, PL = (Some e1, log1) /\ same D e1 e /\ ev_prepare D e1 = false /\ plays e1 (s - ev_start D e) g).
    { unfold PL. destruct (ev_prepare D e) eqn:Ep.
      - destruct (plays_prepare e _ g (Hpl1 Hlive) Ep) as [e1 [A [B C]]]. rewrite A. exists (prepared D e1). eexists. splits; eauto.
      - exists e, log. splits; auto. unfold same. auto. }
    destruct HPL as [e1 [log1 [-> [Hs1 [Hp1 Hpl1']]]]].
    destruct Hs1 as [I1 [S1 [T1 Fr1]]].
    destruct (call_generate_plays e1 g s u out) as [e2 [A [B [C P]]]]; rewrite ?S1, ?T1; auto. rewrite A. cbn [bind].
    assert (Hs : same D e1 e) by (unfold same; auto).
    assert (Hs2 : same D e2 e).
    { destruct B as [B1 [B2 [B3 B4]]]. unfold same. rewrite B1, B2, B3. splits; auto. }
    match goal with |- context [seq_list _ _ ?O (kept ++ [e2]) _ ?L] =>
      destruct (IH O (kept ++ [e2]) L (conj Hso2 (conj Hwf2 Hpl2)) ltac:(rewrite render_in_length; exact Hlen)) as [lp' [log' [A' [B' [C' E']]]]] end.
    exists ((e2, g) :: lp'), log'. splits.
    + rewrite A'. cbn [map fst]. rewrite <- app_assoc. cbn [app]. do 4 f_equal.
      unfold render_in at 2 4. f_equal. f_equal. unfold SeqRenderSpec.render. apply mapi_ext. intros. apply frame_same. exact Hs.
    + destruct B' as [B1 [B2 B3]]. unfold ready. cbn [map fst]. splits.
      * cbn. split; [|exact B1]. apply Forall_forall. intros x Hx. destruct (E' x Hx) as [e0 [H0 H1]]. 
        rewrite Forall_forall in Hso1. specialize (Hso1 e0 H0). rewrite (proj1 (proj2 Hs2)). lia.
      * constructor; [|exact B2]. destruct Hs2 as [_ [-> [-> _]]]. exact Hwf1.
      * constructor; [|exact B3]. cbn [fst snd]. destruct Hs2 as [_ [X1 [X2 _]]]. rewrite X1, X2. rewrite S1, T1 in P. exact P.
    + intros t x Ht. rewrite (frame_same e e2) by exact Hs2. rewrite (frame_cons e g lp'), (frame_cons e g lp). apply C'. exact Ht.
    + intros e' [<-|He']; [exists e; split; [now left|exact (proj1 (proj2 Hs2))]|].
      destruct (E' e' He') as [e0 [H0 H1]]. exists e0. split; [now right|auto].
Qed.

Lemma run_list_render blocks : forall t lp,
  ready t lp -> blocks_fit F t blocks ->
  exists u (lp' : list (event * stage)) log, run_list F D prepare generate t blocks (map fst lp) = Some (true, render_blocks F D lp t blocks, u, map fst lp', log).
Proof.
  assert (EXT : forall blocks t lp lp', blocks_fit F t blocks -> (forall i x, t <= i -> frame lp' i x = frame lp i x) ->
    render_blocks F D lp' t blocks = render_blocks F D lp t blocks).
  { clear. induction blocks as [|[u out] blocks IH]; intros t lp lp' HB H; cbn; [reflexivity|]. destruct HB as [Htu [_ HB]].
    f_equal; [|apply IH; auto; intros; apply H; lia]. f_equal. unfold SeqRenderSpec.render. apply mapi_ext. intros; apply H; lia. }
  induction blocks as [|[u out] blocks IH]; intros t lp HR HB.
  - exists t, lp, []. reflexivity.
  - destruct HB as [Htu [Hlen HB]]. cbn [run_list render_blocks].
    destruct (seq_list_render t u (Nat.lt_le_incl _ _ Htu) lp out [] [] HR Hlen) as [lp1 [log1 [A [B [C _]]]]]. rewrite A. cbn [bind app].
    destruct (IH u lp1 B HB) as [u2 [lp2 [log2 E]]]. rewrite E. cbn [bind]. exists u2, lp2, (log1 ++ log2).
    rewrite (EXT blocks u lp lp1); auto.
Qed.

Lemma render_exact lp blocks : forall t, blocks_exact F t blocks ->
  concat (render_blocks F D lp t blocks) = render lp t (concat (map snd blocks)).
Proof.
  induction blocks as [|[u out] blocks IH]; intros t HB; [reflexivity|]. destruct HB as [Htu [Hlen HB]].
  cbn [render_blocks concat map snd]. rewrite firstn_all2, skipn_all2, app_nil_r by lia.
  unfold SeqRenderSpec.render. rewrite mapi_app. f_equal. rewrite Hlen. replace (t + (u - t)) with u by lia. apply IH. exact HB.
Qed.

Lemma exact_fit blocks : forall t, blocks_exact F t blocks -> blocks_fit F t blocks.
Proof. induction blocks as [|[u out] blocks IH]; cbn; intros t H; auto. destruct H as [A [B C]]. splits; auto; lia. Qed.
End Proofs.
