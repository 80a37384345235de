From Verif Require Import Base SeqModel SeqSpec SeqListProofs SeqSeqProofs SeqLifeSpec SeqLifeProofs SeqRenderSpec SeqRenderProofs.

Section Final.
Variables (F D : Type).
Notation event := (event D).
Variable prepare : event -> option event.
Variable generate : nat -> nat -> list F -> event -> option (list F * event * bool).

Lemma render_blocks_correct t blocks h head L (lp : list (event * stage F)) :
  represents D h head L -> map snd L = map fst lp -> sorted D (map fst lp) ->
  Forall (fun eg => ev_start D (fst eg) <= ev_end D (fst eg)) lp ->
  Forall (fun eg => t < ev_end D (fst eg) -> plays F D prepare generate (fst eg) (t - ev_start D (fst eg)) (snd eg)) lp ->
  blocks_fit F t blocks ->
  exists r, run_blocks F D prepare generate t blocks head h = Some r /\ rr_ok F D r = true /\
    rr_outs F D r = render_blocks F D lp t blocks.
Proof.
  intros HR HL Hso Hwf Hpl HB.
  assert (HRd : ready F D prepare generate t lp).
  { unfold ready. splits; auto. clear -Hwf. induction Hwf; cbn; constructor; auto. }
  destruct (run_list_render F D prepare generate blocks t lp HRd HB) as [u [lp' [log E]]].
  pose proof (run_list_correct F D prepare generate blocks t h head L HR) as HC. rewrite HL, E in HC.
  destruct HC as [r [L' [A [B [C _]]]]]. exists r. auto.
Qed.

Lemma render_correct t blocks h head L (lp : list (event * stage F)) :
  represents D h head L -> map snd L = map fst lp -> sorted D (map fst lp) ->
  Forall (fun eg => ev_start D (fst eg) <= ev_end D (fst eg)) lp ->
  Forall (fun eg => t < ev_end D (fst eg) -> plays F D prepare generate (fst eg) (t - ev_start D (fst eg)) (snd eg)) lp ->
  blocks_exact F t blocks ->
  exists r, run_blocks F D prepare generate t blocks head h = Some r /\ rr_ok F D r = true /\
    concat (rr_outs F D r) = render F D lp t (concat (map snd blocks)).
Proof.
  intros HR HL Hso Hwf Hpl HB.
  destruct (render_blocks_correct t blocks h head L lp HR HL Hso Hwf Hpl (exact_fit F D generate blocks t HB)) as [r [A [B C]]].
  exists r. rewrite C. splits; auto. now apply render_exact.
Qed.

Lemma partition_invariant t blocks1 blocks2 h head L (lp : list (event * stage F)) :
  represents D h head L -> map snd L = map fst lp -> sorted D (map fst lp) ->
  Forall (fun eg => ev_start D (fst eg) <= ev_end D (fst eg)) lp ->
  Forall (fun eg => t < ev_end D (fst eg) -> plays F D prepare generate (fst eg) (t - ev_start D (fst eg)) (snd eg)) lp ->
  blocks_exact F t blocks1 -> blocks_exact F t blocks2 -> concat (map snd blocks1) = concat (map snd blocks2) ->
  exists r1 r2, run_blocks F D prepare generate t blocks1 head h = Some r1 /\ run_blocks F D prepare generate t blocks2 head h = Some r2 /\
    rr_ok F D r1 = true /\ rr_ok F D r2 = true /\ concat (rr_outs F D r1) = concat (rr_outs F D r2).
Proof.
  intros HR HL Hso Hwf Hpl HB1 HB2 HE.
  destruct (render_correct t blocks1 h head L lp) as [r1 [A1 [B1 C1]]]; auto.
  destruct (render_correct t blocks2 h head L lp) as [r2 [A2 [B2 C2]]]; auto.
  exists r1, r2. splits; auto. congruence.
Qed.
End Final.
