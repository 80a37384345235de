From Verif Require Import Base SeqModel SeqSpec SeqListProofs SeqSeqProofs SeqLifeSpec SeqLifeProofs.

Section Final.
Variables (F D : Type).
Notation event := (event D).
Variable prepare : event -> option event.
Variable generate : nat -> nat -> list F -> event -> option (list F * event * bool).

Lemma seq_fail_list s u l : forall out kept lg out1 l1 log1,
  seq_list F D prepare generate s u out kept l lg = Some (false, out1, l1, log1) -> l1 = [].
Proof.
  induction l as [|x l IHl]; intros out kept lg out1 l1 log1 H; cbn [seq_list] in H; [discriminate|].
  destruct (_ <=? _); [eapply IHl; exact H|]. destruct (_ <=? _); [discriminate|].
  destruct (if ev_prepare D x then _ else _) as [[x1|] lg1]; [|congruence].
  destruct (call_generate _ _ _ _ _ _ _) as [[[o2 x2] k]|]; [|discriminate]. cbn [bind] in H.
  destruct k; [eapply IHl; exact H|congruence].
Qed.

Lemma run_fail_list blocks : forall t l ok outs u l1 log, run_list F D prepare generate t blocks l = Some (ok, outs, u, l1, log) -> ok = false -> l1 = [].
Proof.
  induction blocks as [|[u1 out] blocks IH]; intros t l ok outs u l1 log H Hf; cbn [run_list] in H; [congruence|].
  destruct (seq_list _ _ _ _ _ _ _ _ _ _) as [[[[ok1 o1] l2] lg1]|] eqn:E; [|discriminate]. cbn [bind] in H.
  destruct ok1.
  - destruct (run_list _ _ _ _ _ _ _) as [[[[[ok2 os] u2] l3] lg2]|] eqn:E2; [|discriminate]. cbn [bind] in H.
    injection H as <- <- <- <- <-. eauto.
  - injection H as <- <- <- <- <-. eapply seq_fail_list. exact E.
Qed.

Lemma life_cycle t blocks h head L r :
  callbacks_keep_identity F D prepare generate ->
  represents D h head L -> NoDup (map (ev_id D) (map snd L)) -> sorted D (map snd L) ->
  Forall (fun e => ev_start D e <= ev_end D e) (map snd L) -> ascending F t blocks ->
  run_blocks F D prepare generate t blocks head h = Some r ->
  exists L',
    represents D (rr_heap F D r) (rr_head F D r) L' /\
    (forall e, In e (map snd L) -> life D e t (rr_end F D r) (rr_ok F D r) (map snd L') (acts_of D (ev_id D e) (rr_log F D r))) /\
    (forall i, ~ In i (map (ev_id D) (map snd L)) -> acts_of D i (rr_log F D r) = []) /\
    (rr_ok F D r = false -> L' = []) /\
    (forall p, In p (map fst L) -> ~ In p (map fst L') -> nodes D (rr_heap F D r) p = None).
Proof.
  intros KEEP HR Hnd Hso Hwf Hasc H.
  pose proof (run_list_correct F D prepare generate blocks t h head L HR) as HC.
  destruct (run_list _ _ _ _ t blocks (map snd L)) as [[[[[ok outs] u] l] log]|] eqn:E; [|congruence].
  destruct HC as [r' [L' [E' [A [B [C [Dd [HR' [El [Hi [Hg Hf]]]]]]]]]]]. rewrite H in E'. injection E' as <-.
  destruct (run_list_life F D prepare generate KEEP blocks t _ _ _ _ _ _ Hasc Hnd Hso Hwf E) as [Hu [Hsub [Hl Hni]]].
  exists L'. rewrite A, C, Dd, El. splits; auto.
  intros ->. apply run_fail_list in E; auto. rewrite E in El. now destruct L'.
Qed.

(** number of free calls *)
Lemma free_calls_final t blocks h head L r :
  callbacks_keep_identity F D prepare generate ->
  represents D h head L -> NoDup (map (ev_id D) (map snd L)) -> sorted D (map snd L) ->
  Forall (fun e => ev_start D e <= ev_end D e) (map snd L) -> ascending F t blocks ->
  run_blocks F D prepare generate t blocks head h = Some r ->
  exists h' log,
    list_free D (fuel D (rr_heap F D r)) (rr_head F D r) (rr_heap F D r) = Some (h', log) /\
    (forall p, In p (map fst L) -> nodes D h' p = None) /\
    (forall e, In e (map snd L) -> ev_free D e = true ->
      exists before e', acts_of D (ev_id D e) (rr_log F D r ++ log) = before ++ [AFree D e'] /\ same D e' e /\
        Forall (fun a => match a with AFree _ => False | _ => True end) before).
Proof.
  intros KEEP HR Hnd Hso Hwf Hasc H.
  destruct (life_cycle t blocks h head L r KEEP HR Hnd Hso Hwf Hasc H) as [L' [HR' [Hl [Hni [Hok Hg]]]]].
  pose proof (represents_length _ _ _ _ HR') as HLen.
  destruct HR' as [HD [Hnd' Hf']].
  destruct (free_correct D L' (fuel D (rr_heap F D r)) (rr_heap F D r) (rr_head F D r) None HD Hnd') as [h' [A [B C]]]; [unfold fuel; lia|].
  exists h', (free_log D (map snd L')). splits; auto.
  - intros p Hp. rewrite C. destruct (in_dec Nat.eq_dec p (addrs D L')) as [|Hn]; [reflexivity|]. apply Hg; auto.
  - intros e He Hfree. specialize (Hl e He).
    destruct Hl as [e' [prep [gens [tail [v [Ea [Hs [Hp [_ [Ht [_ [_ [_ Hend]]]]]]]]]]]]].
    pose proof (run_list_correct F D prepare generate blocks t h head L HR) as HC.
    destruct (run_list _ _ _ _ t blocks (map snd L)) as [[[[[ok outs] u] l] log]|] eqn:E; [|congruence].
    destruct HC as [r' [L2 [E' [A2 [B2 [C2 [Dd [HR2 [El2 [Hi2 [Hg2 Hf2]]]]]]]]]]]. rewrite H in E'. injection E' as <-.
    destruct (run_list_life F D prepare generate KEEP blocks t _ _ _ _ _ _ Hasc Hnd Hso Hwf E) as [Hu [Hsub _]].
    assert (L2 = L').
    { assert (U : forall hp l1 l2 pv hd, dll D hp pv l1 hd None -> dll D hp pv l2 hd None -> l1 = l2).
      { clear. induction l1 as [|[p e] l1 IH]; intros [|[p2 e2] l2] pv hd H1 H2; cbn in *; auto.
        - destruct H2 as [H2 _]. congruence.
        - destruct H1 as [H1 _]. congruence.
        - destruct H1 as [-> [s [E H1]]], H2 as [[= ->] [s2 [E2 H2]]]. rewrite E in E2. injection E2 as <- <-. f_equal. eauto. }
      eapply U; [exact (proj1 HR2)|exact HD]. }
    subst L2 l. assert (NDids := subseq_nodup D _ _ Hsub Hnd).
    assert (NF : Forall (fun a => match a with AFree _ => False | _ => True end) (prep ++ gens)).
    { apply Forall_app. split.
      - destruct Hp as [->|[_ ->]]; repeat constructor.
      - clear -Ht. revert Ht. generalize (t - ev_start D e). induction gens as [|[j|j x y|ee] gens IH]; cbn; intros a Ht; try contradiction; constructor; auto.
        destruct Ht as [_ [_ [_ Ht]]]. eauto. }
    assert (Hf1 : ev_free D e' = true) by (apply Hs; exact Hfree).
    assert (FL : free_log D [e'] = [AFree D e']) by (unfold free_log; cbn; now rewrite Hf1).
    exists (prep ++ gens), e'. splits; auto. rewrite acts_app, Ea.
    destruct Hend as [[-> [_ Hin]]|[-> [Hn _]]].
    + rewrite app_nil_r. f_equal. rewrite <- (proj1 Hs). rewrite (acts_free_in D prepare) by auto. exact FL.
    + rewrite (acts_free_notin F D prepare generate) by exact Hn. rewrite app_nil_r, FL, app_assoc. reflexivity.
Qed.
End Final.
