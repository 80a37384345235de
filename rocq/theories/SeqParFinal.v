From Verif Require Import Base SeqModel SeqSpec SeqLifeSpec SeqRenderSpec SeqRenderProofs SeqRenderFinal SeqParModel SeqParSpec SeqParProofs.

Section Final.
Variables (F D K : Type).
Variables (zero : F) (add : F -> F -> F).
Notation event := (event D).
Variable prepare : event -> option event.
Variable generate : nat -> nat -> list F -> event -> option (list F * event * bool).
Variable init : nat -> nat -> list F -> event -> K.
Variable step : K -> K.
Variable done : K -> bool.
Variable result : K -> list F * event * bool.

Lemma parallel_sequential t blocks h head L (lp : list (event * stage F)) outs l' :
  implements_callbacks F D K prepare generate init step done result ->
  represents D h head L -> map snd L = map fst lp -> sorted D (map fst lp) ->
  Forall (fun eg => ev_start D (fst eg) <= ev_end D (fst eg)) lp ->
  Forall (fun eg => t < ev_end D (fst eg) -> plays F D prepare generate (fst eg) (t - ev_start D (fst eg)) (snd eg)) lp ->
  Forall (fun eg => additive F zero add (snd eg)) lp ->
  blocks_fit F t blocks ->
  par_blocks F D K zero add init step done result t blocks (map fst lp) outs l' ->
  exists r, run_blocks F D prepare generate t blocks head h = Some r /\ rr_ok F D r = true /\ rr_outs F D r = outs.
Proof.
  intros IMPL HR HL Hso Hwf Hpl Had HB HP.
  destruct (render_blocks_correct F D prepare generate t blocks h head L lp HR HL Hso Hwf Hpl HB) as [r [A [B C]]].
  exists r. splits; auto. rewrite C. symmetry. eapply par_blocks_render; eauto.
  unfold ready. splits; auto. clear -Hwf. induction Hwf; cbn; constructor; auto.
Qed.

Lemma parallel_progress s u lp out schedule :
  implements_callbacks F D K prepare generate init step done result ->
  sorted D (map fst lp) ->
  Forall (fun eg => ev_start D (fst eg) <= ev_end D (fst eg)) lp ->
  Forall (fun eg => s < ev_end D (fst eg) -> plays F D prepare generate (fst eg) (s - ev_start D (fst eg)) (snd eg)) lp ->
  Forall (fun eg => additive F zero add (snd eg)) lp ->
  s <= u -> u - s <= length out ->
  exists st, par_run F D K zero add init step done result s u schedule (par_init F D K out (map fst lp)) = Some st /\
    ps_phase F D K st <> Failed /\
    exists schedule' st', par_run F D K zero add init step done result s u schedule' st = Some st' /\ ps_phase F D K st' = Finished.
Proof.
  intros IMPL Hso Hwf Hpl Had Hsu Hlen.
  assert (HRd : ready F D prepare generate s lp).
  { unfold ready. splits; auto. clear -Hwf. induction Hwf; cbn; constructor; auto. }
  destruct (run_inv F D K zero add prepare generate init step done result IMPL s u lp out schedule Hsu Hlen _
    (init_inv F D K zero add prepare generate step done result s u lp out HRd Had)) as [st [A HI]].
  exists st. splits; auto.
  - intro E. destruct HI as [act [todo [_ [_ [_ [_ [_ [_ [_ [_ HP]]]]]]]]]]. rewrite E in HP. exact HP.
  - eapply can_finish; eauto.
Qed.

Lemma parallel_events s u lp out schedule st :
  implements_callbacks F D K prepare generate init step done result ->
  sorted D (map fst lp) ->
  Forall (fun eg => ev_start D (fst eg) <= ev_end D (fst eg)) lp ->
  Forall (fun eg => s < ev_end D (fst eg) -> plays F D prepare generate (fst eg) (s - ev_start D (fst eg)) (snd eg)) lp ->
  Forall (fun eg => additive F zero add (snd eg)) lp ->
  s < u -> u - s <= length out ->
  par_run F D K zero add init step done result s u schedule (par_init F D K out (map fst lp)) = Some st -> ps_phase F D K st = Finished ->
  ps_freed F D K st = filter (fun e => ev_end D e <=? s) (map fst lp) /\
  Forall2 (same D) (par_events F D K result st) (filter (fun e => s <? ev_end D e) (map fst lp)).
Proof.
  intros IMPL Hso Hwf Hpl Had Hsu Hlen Er Eph.
  assert (HRd : ready F D prepare generate s lp).
  { unfold ready. splits; auto. clear -Hwf. induction Hwf; cbn; constructor; auto. }
  destruct (run_inv F D K zero add prepare generate init step done result IMPL s u lp out schedule (Nat.lt_le_incl _ _ Hsu) Hlen _
    (init_inv F D K zero add prepare generate step done result s u lp out HRd Had)) as [st' [A HI]].
  rewrite Er in A. injection A as <-. eapply finished_events; eauto.
Qed.
End Final.
