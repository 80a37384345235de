(** The list operations on the heap implement the abstract ones. *)
From Verif Require Import Base SeqModel SeqSpec.
From Coq Require Import Permutation.

Section Proofs.
Variables (D : Type).
Notation event := (event D).
Notation heap := (heap D).
Notation nodes := (nodes D).
Notation fresh := (fresh D).
Notation dll := (dll D).
Notation mk := (Build_node D).
Implicit Types (h : heap) (l : list (nat * event)).

Definition addrs l : list nat := map fst l.
Definition last_addr (previous : option nat) l : option nat := fold_left (fun _ x => Some (fst x)) l previous.

Lemma last_addr_snoc previous l x : last_addr previous (l ++ [x]) = Some (fst x).
Proof. unfold last_addr. rewrite fold_left_app. reflexivity. Qed.
Lemma last_addr_cons previous l p e : last_addr previous ((p, e) :: l) = last_addr (Some p) l.
Proof. reflexivity. Qed.
Lemma last_addr_in previous l q : last_addr previous l = Some q -> l = [] \/ In q (addrs l).
Proof.
  destruct l as [|x l] using rev_ind; [now left|]. rewrite last_addr_snoc. intros [= <-]. right.
  unfold addrs. rewrite map_app, in_app_iff. cbn. auto.
Qed.

Lemma dll_app h l1 : forall previous l2 head next,
  dll h previous (l1 ++ l2) head next <-> exists mid, dll h previous l1 head mid /\ dll h (last_addr previous l1) l2 mid next.
Proof.
  induction l1 as [|[p e] l1 IH]; intros previous l2 head next.
  - cbn. split; [intro H; exists head; auto|intros [mid [-> H]]; exact H].
  - cbn [app SeqSpec.dll]. rewrite last_addr_cons. split.
    + intros [-> [s [E H]]]. apply IH in H as [mid [H1 H2]]. exists mid. splits; auto. exists s. auto.
    + intros [mid [[-> [s [E H1]]] H2]]. split; [reflexivity|]. exists s. split; [exact E|]. apply IH. exists mid. auto.
Qed.

Lemma dll_frame h h' l : forall previous head next,
  (forall p, In p (addrs l) -> nodes h' p = nodes h p) -> dll h previous l head next -> dll h' previous l head next.
Proof.
  induction l as [|[p e] l IH]; cbn [SeqSpec.dll]; intros previous head next HF H; [exact H|].
  destruct H as [-> [s [E H]]]. split; [reflexivity|]. exists s. split.
  - rewrite HF; [exact E|now left].
  - apply IH; [|exact H]. intros q Hq. apply HF. now right.
Qed.

Lemma dll_cons_inv h previous p e l head next :
  dll h previous ((p, e) :: l) head next ->
  head = Some p /\ exists s, nodes h p = Some (mk previous s e) /\ dll h (Some p) l s next.
Proof. exact (fun H => H). Qed.

Lemma dll_head_some h previous l p next : dll h previous l (Some p) next -> ~ In p (addrs l) -> next = Some p /\ l = [].
Proof. destruct l as [|[q e] l]; cbn; [intros ->; auto|]. intros [[= ->] _] Hn. elim Hn. now left. Qed.

Lemma set_node_same h p n : nodes (set_node D h p n) p = n.
Proof. cbn. now rewrite Nat.eqb_refl. Qed.
Lemma set_node_other h p q n : q <> p -> nodes (set_node D h p n) q = nodes h q.
Proof. intro H. cbn. apply Nat.eqb_neq in H. now rewrite H. Qed.

Lemma set_next_some h p x n : nodes h p = Some n ->
  exists h', set_next D h p x = Some h' /\ fresh h' = fresh h /\
    nodes h' p = Some (mk (n_previous D n) x (n_event D n)) /\ (forall q, q <> p -> nodes h' q = nodes h q).
Proof.
  intro E. unfold set_next. rewrite E. cbn [bind]. eexists. split; [reflexivity|]. splits.
  - reflexivity.
  - apply set_node_same.
  - intros q Hq. now apply set_node_other.
Qed.
Lemma set_previous_some h p x n : nodes h p = Some n ->
  exists h', set_previous D h p x = Some h' /\ fresh h' = fresh h /\
    nodes h' p = Some (mk x (n_next D n) (n_event D n)) /\ (forall q, q <> p -> nodes h' q = nodes h q).
Proof.
  intro E. unfold set_previous. rewrite E. cbn [bind]. eexists. split; [reflexivity|]. splits.
  - reflexivity.
  - apply set_node_same.
  - intros q Hq. now apply set_node_other.
Qed.
Lemma set_event_some h p x n : nodes h p = Some n ->
  exists h', set_event D h p x = Some h' /\ fresh h' = fresh h /\
    nodes h' p = Some (mk (n_previous D n) (n_next D n) x) /\ (forall q, q <> p -> nodes h' q = nodes h q).
Proof.
  intro E. unfold set_event. rewrite E. cbn [bind]. eexists. split; [reflexivity|]. splits.
  - reflexivity.
  - apply set_node_same.
  - intros q Hq. now apply set_node_other.
Qed.

(** changing the back link of the first node *)
Lemma dll_set_previous h previous l head next x p :
  dll h previous l head next -> NoDup (addrs l) -> l <> [] -> head = Some p ->
  exists h', set_previous D h p x = Some h' /\ fresh h' = fresh h /\ dll h' x l head next /\
    (forall q, q <> p -> nodes h' q = nodes h q).
Proof.
  destruct l as [|[q e] l]; [congruence|]. intros [-> [s [E H]]] Hnd _ [= <-].
  destruct (set_previous_some h q x _ E) as [h' [E' [Ef [En Hq]]]]. exists h'. splits; auto.
  split; [reflexivity|]. exists s. split; [exact En|]. apply dll_frame with h; [|exact H].
  intros r Hr. apply Hq. inversion Hnd; subst. intros ->. auto.
Qed.

(** changing the forward link of the last node *)
Lemma dll_set_next h l : forall previous e head next x p,
  dll h previous (l ++ [(p, e)]) head next -> NoDup (addrs (l ++ [(p, e)])) ->
  exists h', set_next D h p x = Some h' /\ fresh h' = fresh h /\ dll h' previous (l ++ [(p, e)]) head x /\
    (forall q, q <> p -> nodes h' q = nodes h q).
Proof.
  intros previous e head next x p H Hnd. apply dll_app in H as [mid [H1 [-> [s [E Hs]]]]]. cbn in Hs. subst s.
  destruct (set_next_some h p x _ E) as [h' [E' [Ef [En Hq]]]]. exists h'. splits; auto.
  apply dll_app. exists (Some p). split.
  - apply dll_frame with h; [|exact H1]. intros r Hr. apply Hq. intros ->.
    unfold addrs in Hnd. rewrite map_app in Hnd. cbn in Hnd. apply NoDup_remove_2 in Hnd. rewrite app_nil_r in Hnd. auto.
  - split; [reflexivity|]. exists x. split; [exact En|reflexivity].
Qed.

Lemma addrs_app l1 l2 : addrs (l1 ++ l2) = addrs l1 ++ addrs l2.
Proof. apply map_app. Qed.

Lemma nodup_app_l {A} (a b : list A) : NoDup (a ++ b) -> NoDup a.
Proof.
  induction a as [|x a IH]; cbn; intro H; [constructor|]. inversion H; subst. constructor; [|auto].
  intro Hx. apply H2. apply in_or_app. now left.
Qed.
Lemma nodup_app_r {A} (a b : list A) : NoDup (a ++ b) -> NoDup b.
Proof. induction a as [|x a IH]; cbn; intro H; [exact H|]. inversion H; subst. auto. Qed.
Lemma nodup_app_disj {A} (a b : list A) x : NoDup (a ++ b) -> In x a -> In x b -> False.
Proof.
  induction a as [|y a IH]; cbn; intros H Ha Hb; [exact Ha|]. inversion H; subst. destruct Ha as [->|Ha].
  - apply H2. apply in_or_app. now right.
  - eauto.
Qed.

(** ** representation facts *)
Lemma represents_alloc h head l p e : represents D h head l -> In (p, e) l -> exists n, nodes h p = Some n /\ n_event D n = e.
Proof.
  intros [H _] Hin. apply in_split in Hin as [l1 [l2 ->]]. apply dll_app in H as [mid [_ [_ [s [E _]]]]].
  exists (mk (last_addr None l1) s e). auto.
Qed.

Lemma represents_length h head l : represents D h head l -> length l <= fresh h.
Proof.
  intros [_ [Hnd Hf]]. rewrite <- (map_length fst). rewrite <- (seq_length (fresh h) 0).
  apply NoDup_incl_length; [exact Hnd|]. intros p Hp. apply in_map_iff in Hp as [x [<- Hx]].
  rewrite Forall_forall in Hf. specialize (Hf x Hx). apply in_seq. lia.
Qed.

(** ** reverse *)
Lemma reverse_loop_correct l : forall n h done nxt cur head',
  dll h (last_addr None done) l nxt None -> NoDup (addrs (done ++ l)) -> length l < n ->
  dll h nxt (rev done) head' None -> (head' = cur) -> (done ++ l <> []) ->
  exists c h', reverse_loop D n nxt cur h = Some (Some c, h') /\ fresh h' = fresh h /\
    dll h' None (rev l ++ rev done) (Some c) None /\ (forall q, ~ In q (addrs (done ++ l)) -> nodes h' q = nodes h q).
Proof.
  induction l as [|[p e] l IH]; intros n h done nxt cur head' H Hnd Hn Hd Hc Hne.
  - cbn in H. subst nxt. rewrite app_nil_r in *.
    destruct done as [|x done] using rev_ind; [congruence|]. rewrite rev_unit in *. destruct x as [p e].
    destruct Hd as [-> Hd]. subst cur. exists p, h. destruct n; [cbn in Hn; lia|]. cbn. splits; auto.
  - destruct n; [cbn in Hn; lia|]. destruct H as [-> [s [E H]]]. cbn [reverse_loop]. rewrite E. cbn [bind n_previous n_next].
    destruct (set_next_some h p (last_addr None done) _ E) as [h1 [E1 [F1 [N1 O1]]]]. rewrite E1. cbn [bind].
    destruct (set_previous_some h1 p s _ N1) as [h2 [E2 [F2 [N2 O2]]]]. rewrite E2. cbn [bind].
    assert (HO : forall q, q <> p -> nodes h2 q = nodes h q) by (intros q Hq; rewrite O2, O1 by auto; reflexivity).
    cbn [n_event n_next n_previous] in *.
    assert (Hp : ~ In p (addrs l) /\ ~ In p (addrs done)).
    { rewrite addrs_app in Hnd. cbn in Hnd. apply NoDup_remove_2 in Hnd. rewrite in_app_iff in Hnd. tauto. }
    assert (Hnd' : NoDup (addrs ((done ++ [(p, e)]) ++ l))) by (rewrite <- app_assoc; exact Hnd).
    destruct (IH n h2 (done ++ [(p, e)]) s (Some p) (Some p)) as [c [h' [ER [FR [HR OR]]]]].
    + rewrite last_addr_snoc. cbn. apply dll_frame with h; [|exact H]. intros q Hq. apply HO. intros ->. tauto.
    + exact Hnd'.
    + cbn in Hn. lia.
    + rewrite rev_unit. split; [reflexivity|]. exists (last_addr None done). split; [exact N2|].
      assert (Hh : head' = last_addr None done).
      { destruct done as [|[q e'] done] using rev_ind.
        - cbn in Hd. cbn. congruence.
        - rewrite rev_unit in Hd. destruct Hd as [-> _]. now rewrite last_addr_snoc. }
      rewrite <- Hh. apply dll_frame with h; [|exact Hd]. intros q Hq. apply HO. intros ->.
      unfold addrs in Hq. rewrite map_rev, <- in_rev in Hq. tauto.
    + reflexivity.
    + destruct done; discriminate.
    + exists c, h'. splits; [exact ER|congruence| |].
      * cbn [rev]. rewrite <- app_assoc. rewrite rev_unit in HR. exact HR.
      * intros q Hq. rewrite addrs_app in Hq. cbn in Hq. rewrite OR.
        -- apply HO. intros ->. apply Hq. apply in_or_app. right. now left.
        -- rewrite !addrs_app, !in_app_iff. rewrite in_app_iff in Hq. cbn. unfold addrs in *. cbn [In] in Hq. tauto.
Qed.

Lemma reverse_correct h head l :
  represents D h head l -> l <> [] ->
  exists head' h', list_reverse D head h = Some (head', h') /\ represents D h' head' (rev l) /\
    (forall q, ~ In q (addrs l) -> nodes h' q = nodes h q).
Proof.
  intros HR Hne. pose proof (represents_length _ _ _ HR) as HL. destruct HR as [H [Hnd Hf]].
  destruct (reverse_loop_correct l (fuel D h) h [] head None None) as [c [h' [E [F [HD O]]]]]; auto.
  - unfold fuel. lia.
  - reflexivity.
  - exists (Some c), h'. splits; auto. cbn [rev] in HD. rewrite app_nil_r in HD. unfold represents. splits.
    + exact HD.
    + rewrite map_rev. now apply NoDup_rev.
    + rewrite F. now apply Forall_rev.
Qed.

Lemma reverse_empty h : list_reverse D None h = None.
Proof. reflexivity. Qed.

(** ** add *)
Lemma insert_cons x y l : ev_start D (snd x) < ev_start D (snd y) -> insert D x (y :: l) = y :: insert D x l.
Proof. intro H. cbn. destruct (Nat.leb_spec (ev_start D (snd y)) (ev_start D (snd x))); [lia|reflexivity]. Qed.
Lemma insert_here x y l : ev_start D (snd y) <= ev_start D (snd x) -> insert D x (y :: l) = x :: y :: l.
Proof. intro H. cbn. destruct (Nat.leb_spec (ev_start D (snd y)) (ev_start D (snd x))); [reflexivity|lia]. Qed.

Lemma add_loop_correct l : forall n h l1 p e0 new e head,
  dll h None (l1 ++ (p, e0) :: l) head None -> NoDup (new :: addrs (l1 ++ (p, e0) :: l)) ->
  nodes h new = Some (mk None None e) -> ev_start D e < ev_start D e0 -> length l < n ->
  exists h', add_loop D n e new p h = Some h' /\ fresh h' = fresh h /\
    dll h' None (l1 ++ (p, e0) :: insert D (new, e) l) head None /\
    (forall q, ~ In q (new :: addrs (l1 ++ (p, e0) :: l)) -> nodes h' q = nodes h q).
Proof.
  induction l as [|[p1 e1] l IH]; intros n h l1 p e0 new e head H Hnd Hnew Hlt Hn.
  - destruct n; [cbn in Hn; lia|]. cbn [add_loop]. inversion Hnd as [|? ? Hni Hnd']; subst.
    pose proof H as H0. apply dll_app in H0 as [mid [H1 [-> [s [E Hs]]]]]. cbn in Hs. subst s. rewrite E. cbn [bind n_next].
    assert (Hpn : p <> new) by (intros ->; apply Hni; rewrite addrs_app, in_app_iff; right; now left).
    destruct (set_next_some h new None _ Hnew) as [h1 [E1 [F1 [N1 O1]]]]. rewrite E1. cbn [bind].
    destruct (set_previous_some h1 new (Some p) _ N1) as [h2 [E2 [F2 [N2 O2]]]]. rewrite E2. cbn [bind]. cbn in N2.
    destruct (dll_set_next h2 l1 None e0 head None (Some new) p) as [h3 [E3 [F3 [H3 O3]]]].
    { apply dll_frame with h; [|exact H]. intros q Hq. rewrite O2, O1; auto; intros ->; auto. }
    { exact Hnd'. }
    exists h3. splits; [exact E3|congruence| |].
    + cbn [insert]. change (l1 ++ [(p, e0); (new, e)]) with (l1 ++ ([(p, e0)] ++ [(new, e)])). rewrite app_assoc.
      apply dll_app. exists (Some new). split; [exact H3|]. split; [reflexivity|]. exists None. split; [|reflexivity].
      rewrite O3 by auto. rewrite last_addr_snoc. exact N2.
    + intros q Hq. rewrite O3, O2, O1; auto; intros ->; apply Hq; [now left|now left|].
      right. rewrite addrs_app, in_app_iff. right. now left.
  - destruct n; [cbn in Hn; lia|]. cbn [add_loop]. inversion Hnd as [|? ? Hni Hnd']; subst.
    pose proof H as H0. apply dll_app in H0 as [mid [H1 [-> [s [E [-> [s1 [E1 Hl]]]]]]]].
    rewrite E. cbn [bind n_next]. rewrite E1. cbn [bind n_event n_previous].
    assert (Hpn : p <> new) by (intros ->; apply Hni; rewrite addrs_app, in_app_iff; right; now left).
    assert (Hp1n : p1 <> new) by (intros ->; apply Hni; rewrite addrs_app, in_app_iff; right; right; now left).
    assert (Hpp : p <> p1).
    { intros ->. rewrite addrs_app in Hnd'. apply nodup_app_r in Hnd'. cbn in Hnd'. inversion Hnd'. apply H3. now left. }
    destruct (Nat.leb_spec (ev_start D e1) (ev_start D e)).
    + rewrite insert_here by exact H0.
      destruct (set_previous_some h new (Some p) _ Hnew) as [h1 [A1 [F1 [N1 O1]]]]. rewrite A1. cbn [bind].
      destruct (set_next_some h1 new (Some p1) _ N1) as [h2 [A2 [F2 [N2 O2]]]]. rewrite A2. cbn [bind]. cbn in N2.
      rewrite O2, O1, E1 by auto. cbn [bind n_previous].
      assert (Hd2 : dll h2 None (l1 ++ (p, e0) :: (p1, e1) :: l) head None).
      { apply dll_frame with h; [|exact H]. intros q Hq. rewrite O2, O1; auto; intros ->; auto. }
      change (l1 ++ (p, e0) :: (p1, e1) :: l) with (l1 ++ ([(p, e0)] ++ (p1, e1) :: l)) in Hd2, Hnd'. rewrite app_assoc in Hd2, Hnd'.
      apply dll_app in Hd2 as [mid' [Hl1 Hl2]]. rewrite last_addr_snoc in Hl2. cbn [fst] in Hl2.
      rewrite addrs_app in Hnd'.
      destruct (dll_set_next h2 l1 None e0 head mid' (Some new) p Hl1 (nodup_app_l _ _ Hnd')) as [h3 [A3 [F3 [H3 O3]]]].
      rewrite A3. cbn [bind].
      pose proof Hl2 as [Hmid _].
      assert (Hl2' : dll h3 (Some p) ((p1, e1) :: l) mid' None).
      { apply dll_frame with h2; [|exact Hl2]. intros q Hq. apply O3. intros ->.
        apply (nodup_app_disj _ _ p Hnd'); [|exact Hq]. rewrite addrs_app, in_app_iff. right. now left. }
      destruct (dll_set_previous h3 _ _ _ _ (Some new) p1 Hl2' (nodup_app_r _ _ Hnd') ltac:(discriminate) Hmid)
        as [h4 [A4 [F4 [H4 O4]]]].
      exists h4. splits; [exact A4|congruence| |].
      * change (l1 ++ (p, e0) :: (new, e) :: (p1, e1) :: l) with (l1 ++ [(p, e0)] ++ (new, e) :: (p1, e1) :: l).
        rewrite app_assoc. apply dll_app. exists (Some new). split.
        -- apply dll_frame with h3; [|exact H3]. intros q Hq. apply O4. intros ->.
           apply (nodup_app_disj _ _ p1 Hnd'); [exact Hq|now left].
        -- split; [reflexivity|]. exists mid'. split; [|exact H4]. rewrite last_addr_snoc. cbn [fst].
           rewrite O4, O3 by auto. rewrite N2. now rewrite Hmid.
      * intros q Hq. rewrite O4, O3, O2, O1; auto; intros ->; apply Hq; [now left|now left| |];
          right; rewrite addrs_app, in_app_iff; right; cbn; auto.
    + rewrite insert_cons by exact H0.
      destruct (IH n h (l1 ++ [(p, e0)]) p1 e1 new e head) as [h' [A [F' [HD O]]]].
      * rewrite <- app_assoc. exact H.
      * rewrite <- app_assoc. exact Hnd.
      * exact Hnew.
      * exact H0.
      * cbn in Hn. lia.
      * exists h'. rewrite <- !app_assoc in *. splits; auto.
Qed.

Lemma insert_perm x l : Permutation (insert D x l) (x :: l).
Proof.
  induction l as [|y l IH]; [reflexivity|]. cbn. destruct (_ <=? _); [reflexivity|].
  rewrite IH. apply perm_swap.
Qed.

Lemma represents_intro h head l l' :
  dll h None l' head None -> Permutation l' l -> NoDup (addrs l) -> Forall (fun x => fst x < fresh h) l -> represents D h head l'.
Proof.
  intros H HP Hnd Hf. unfold represents. splits; [exact H| |].
  - eapply Permutation_NoDup; [|exact Hnd]. unfold addrs. apply Permutation_map. now symmetry.
  - eapply Permutation_Forall; [|exact Hf]. now symmetry.
Qed.

Lemma add_correct h head l e :
  represents D h head l ->
  exists head' h', list_add D true head e h = Some (true, head', h') /\ fresh h' = S (fresh h) /\
    represents D h' head' (insert D (fresh h, e) l) /\
    (forall q, ~ In q (fresh h :: addrs l) -> nodes h' q = nodes h q).
Proof.
  intro HR. pose proof (represents_length _ _ _ HR) as HL. destruct HR as [H [Hnd Hf]].
  unfold list_add. set (new := fresh h).
  set (h0 := Build_heap D (fun q => if q =? new then Some (mk None None e) else nodes h q) (S new)).
  assert (N0 : nodes h0 new = Some (mk None None e)) by (cbn; now rewrite Nat.eqb_refl).
  assert (O0 : forall q, q <> new -> nodes h0 q = nodes h q) by (intros q Hq; cbn; apply Nat.eqb_neq in Hq; now rewrite Hq).
  assert (Hni : ~ In new (addrs l)).
  { intro Hin. unfold addrs in Hin. apply in_map_iff in Hin as [x [Ex Hx]]. rewrite Forall_forall in Hf. specialize (Hf x Hx). unfold new in *. lia. }
  assert (Hnd' : NoDup (addrs ((new, e) :: l))) by (constructor; auto).
  assert (Hf' : Forall (fun x => fst x < S new) ((new, e) :: l)).
  { constructor; [cbn; lia|]. eapply Forall_impl; [|exact Hf]. cbn. unfold new. intros; lia. }
  assert (H0 : dll h0 None l head None).
  { apply dll_frame with h; [|exact H]. intros q Hq. apply O0. intros ->. auto. }
  destruct l as [|[c ec] l].
  - cbn in H. subst head. exists (Some new), h0. unfold represents. splits; auto.
    + split; [reflexivity|]. exists None. split; [exact N0|reflexivity].
    + intros q Hq. apply O0. intros ->. apply Hq. now left.
  - pose proof H0 as [-> [s [E Hs]]]. rewrite E. cbn [bind n_event].
    assert (Hcn : c <> new) by (intros ->; apply Hni; now left).
    destruct (Nat.leb_spec (ev_start D ec) (ev_start D e)).
    + rewrite insert_here by exact H1.
      destruct (set_previous_some h0 new None _ N0) as [h1 [A1 [F1 [N1 O1]]]]. rewrite A1. cbn [bind].
      destruct (set_next_some h1 new (Some c) _ N1) as [h2 [A2 [F2 [N2 O2]]]]. rewrite A2. cbn [bind]. cbn in N2.
      assert (H2 : dll h2 None ((c, ec) :: l) (Some c) None).
      { apply dll_frame with h0; [|exact H0]. intros q Hq. rewrite O2, O1; auto; intros ->; auto. }
      destruct (dll_set_previous h2 _ _ _ _ (Some new) c H2 Hnd ltac:(discriminate) eq_refl) as [h3 [A3 [F3 [H3 O3]]]].
      rewrite A3. cbn [bind]. exists (Some new), h3. unfold represents. splits.
      * reflexivity.
      * rewrite F3, F2, F1. reflexivity.
      * split; [reflexivity|]. exists (Some c). split; [|exact H3]. rewrite O3 by auto. exact N2.
      * exact Hnd'.
      * rewrite F3, F2, F1. exact Hf'.
      * intros q Hq. rewrite O3, O2, O1, O0; auto; intros ->; apply Hq; cbn; auto.
    + rewrite insert_cons by exact H1.
      destruct (add_loop_correct l (fuel D h0) h0 [] c ec new e (Some c)) as [h' [A [F' [HD O]]]]; auto.
      * unfold fuel, h0, new. cbn [SeqModel.fresh]. cbn [length] in HL. lia.
      * rewrite A. cbn [bind]. exists (Some c), h'. splits; [reflexivity|rewrite F'; reflexivity| |].
        -- apply represents_intro with ((new, e) :: (c, ec) :: l); auto.
           ++ rewrite (insert_perm (new, e) l). apply perm_swap.
           ++ rewrite F'. exact Hf'.
        -- intros q Hq. rewrite O by exact Hq. apply O0. intros ->. apply Hq. now left.
Qed.

(** ** remove *)
Lemma unlink_correct h head l1 p e l2 :
  represents D h head (l1 ++ (p, e) :: l2) ->
  exists head' h', list_unlink D head p h = Some (head', h') /\ fresh h' = fresh h /\ nodes h' p = nodes h p /\
    dll h' None (l1 ++ l2) head' None /\
    (forall q, ~ In q (addrs (l1 ++ (p, e) :: l2)) -> nodes h' q = nodes h q).
Proof.
  intros [H [Hnd Hf]]. unfold list_unlink. apply dll_app in H as [mid [H1 [-> [s [E H2]]]]]. rewrite E. cbn [bind n_previous n_next].
  fold (addrs (l1 ++ (p, e) :: l2)) in Hnd. rewrite addrs_app in Hnd. cbn in Hnd.
  pose proof (NoDup_remove_1 _ _ _ Hnd) as Hnd'. pose proof (NoDup_remove_2 _ _ _ Hnd) as Hp. rewrite in_app_iff in Hp.
  assert (STEP : exists head' h1, (match last_addr None l1 with
    | Some q => h <- set_next D h q s ;; Some (head, h) | None => Some (s, h) end) = Some (head', h1) /\
    fresh h1 = fresh h /\ dll h1 None l1 head' s /\ (forall q, ~ In q (addrs l1) -> nodes h1 q = nodes h q)).
  { destruct l1 as [|[q eq] l1] using rev_ind.
    - cbn. exists s, h. splits; auto.
    - rewrite last_addr_snoc. cbn [fst].
      destruct (dll_set_next h l1 None eq head (Some p) s q H1 (nodup_app_l _ _ Hnd)) as [h1 [A1 [F1 [D1 O1]]]].
      rewrite A1. cbn [bind]. exists head, h1. splits; auto. intros r Hr. apply O1. intros ->. apply Hr.
      rewrite addrs_app, in_app_iff. right. now left. }
  destruct STEP as [head' [h1 [A1 [F1 [D1 O1]]]]]. rewrite A1. cbn [bind].
  assert (H2' : dll h1 (Some p) l2 s None).
  { apply dll_frame with h; [|exact H2]. intros q Hq. apply O1. intro Hq'. exact (nodup_app_disj _ _ q Hnd' Hq' Hq). }
  assert (Np : nodes h1 p = nodes h p) by (apply O1; tauto).
  destruct l2 as [|[q eq] l2].
  - cbn in H2'. subst s. cbn [bind]. exists head', h1. rewrite app_nil_r. splits; [reflexivity|exact F1|congruence|exact D1|].
    intros r Hr. apply O1. intro. apply Hr. rewrite addrs_app, in_app_iff. auto.
  - pose proof H2' as [-> _]. 
    destruct (dll_set_previous h1 _ _ _ _ (last_addr None l1) q H2' (nodup_app_r _ _ Hnd') ltac:(discriminate) eq_refl)
        as [h2 [A2 [F2 [D2 O2]]]].
    rewrite A2. cbn [bind]. exists head', h2. splits; [reflexivity|congruence| | |].
    + rewrite O2; [congruence|]. intros ->. apply Hp. right. now left.
    + apply dll_app. exists (Some q). split; [|exact D2]. apply dll_frame with h1; [|exact D1]. intros r Hr. apply O2. intros ->.
      apply (nodup_app_disj _ _ q Hnd' Hr). now left.
    + intros r Hr. rewrite addrs_app, in_app_iff in Hr. cbn in Hr. rewrite O2, O1; auto. intros ->. tauto.
Qed.

Lemma remove_correct h head l1 p e l2 :
  represents D h head (l1 ++ (p, e) :: l2) ->
  exists head' h', list_remove D head p h = Some (head', h', free_log D [e]) /\ represents D h' head' (l1 ++ l2) /\
    fresh h' = fresh h /\ nodes h' p = None /\
    (forall q, ~ In q (addrs (l1 ++ (p, e) :: l2)) -> nodes h' q = nodes h q).
Proof.
  intro HR. destruct (represents_alloc _ _ _ p e HR) as [n [En Ee]]; [apply in_or_app; right; now left|].
  destruct (unlink_correct _ _ _ _ _ _ HR) as [head' [h1 [A1 [F1 [N1 [D1 O1]]]]]]. destruct HR as [H [Hnd Hf]].
  unfold list_remove. rewrite A1. cbn [bind]. rewrite N1, En. cbn [bind]. unfold free_node. rewrite N1, En. cbn [bind].
  exists head', (set_node D h1 p None). subst e. splits.
  - unfold free_log. cbn [filter map]. destruct (ev_free D (n_event D n)); reflexivity.
  - fold (addrs (l1 ++ (p, n_event D n) :: l2)) in Hnd. rewrite addrs_app in Hnd. cbn in Hnd.
    pose proof (NoDup_remove_1 _ _ _ Hnd) as Hnd'. pose proof (NoDup_remove_2 _ _ _ Hnd) as Hp.
    unfold represents. splits.
    + apply dll_frame with h1; [|exact D1]. intros q Hq. apply set_node_other. intros ->.
      rewrite addrs_app in Hq. auto.
    + fold (addrs (l1 ++ l2)). now rewrite addrs_app.
    + cbn. rewrite F1. rewrite Forall_app in *. destruct Hf as [Hf1 Hf2]. inversion Hf2; subst. auto.
  - exact F1.
  - apply set_node_same.
  - intros q Hq. rewrite set_node_other; [now apply O1|]. intros ->. apply Hq. rewrite addrs_app, in_app_iff. right. now left.
Qed.

(** ** free *)
Lemma free_correct l : forall n h head previous,
  dll h previous l head None -> NoDup (addrs l) -> length l < n ->
  exists h', list_free D n head h = Some (h', free_log D (map snd l)) /\ fresh h' = fresh h /\
    (forall q, nodes h' q = if in_dec Nat.eq_dec q (addrs l) then None else nodes h q).
Proof.
  induction l as [|[p e] l IH]; intros n h head previous H Hnd Hn.
  - cbn in H. subst head. destruct n; [cbn in Hn; lia|]. exists h. splits; auto.
  - destruct n; [cbn in Hn; lia|]. destruct H as [-> [s [E H]]]. cbn [list_free]. rewrite E. cbn [bind n_next n_event].
    unfold free_node. rewrite E. cbn [bind].
    inversion Hnd as [|? ? Hni Hnd']; subst.
    destruct (IH n (set_node D h p None) s (Some p)) as [h' [A [F O]]].
    + apply dll_frame with h; [|exact H]. intros q Hq. apply set_node_other. intros ->. auto.
    + exact Hnd'.
    + cbn in Hn. lia.
    + rewrite A. cbn [bind]. exists h'. splits.
      * cbn [map snd]. unfold free_log. cbn [filter]. destruct (ev_free D e); reflexivity.
      * exact F.
      * intro q. rewrite O. destruct (Nat.eq_dec q p) as [->|Hq].
        -- destruct (in_dec Nat.eq_dec p (addrs l)); [contradiction|].
           rewrite set_node_same. destruct (in_dec Nat.eq_dec p (addrs ((p, e) :: l))) as [_|C]; [reflexivity|elim C; now left].
        -- destruct (in_dec Nat.eq_dec q (addrs l)) as [Hi|Hi];
             destruct (in_dec Nat.eq_dec q (addrs ((p, e) :: l))) as [Hj|Hj]; auto.
           ++ elim Hj. now right.
           ++ destruct Hj as [Hj|Hj]; [cbn in Hj; congruence|contradiction].
           ++ now apply set_node_other.
Qed.

(** ** validate *)
Lemma find_duplicate_ok b h l : forall n previous head count,
  dll h previous l head None -> length l < n ->
  count + count_occ Nat.eq_dec (addrs l) b <= 1 -> find_duplicate D n head b count h = Some true.
Proof.
  induction l as [|[p e] l IH]; intros n previous head count H Hn Hc.
  - cbn in H. subst head. destruct n; reflexivity.
  - destruct n; [cbn in Hn; lia|]. destruct H as [-> [s [E H]]]. cbn [find_duplicate]. rewrite E. cbn [bind n_next].
    cbn [addrs map fst count_occ] in Hc.
    destruct (Nat.eqb_spec p b) as [->|Hp].
    + destruct (Nat.eq_dec b b) as [_|]; [|congruence]. destruct (Nat.eqb_spec count 1); [lia|].
      apply IH with (Some b); auto; [cbn in Hn; lia|]. unfold addrs. lia.
    + destruct (Nat.eq_dec p b); [congruence|]. apply IH with (Some p); auto. cbn in Hn; lia.
Qed.

Lemma validate_loop_ok h head l : represents D h head l ->
  forall l2 l1 n cur, l = l1 ++ l2 -> dll h (last_addr None l1) l2 cur None -> length l2 < n ->
  validate_loop D n head cur (last_addr None l1) h = Some true.
Proof.
  intro HR. pose proof (represents_length _ _ _ HR) as HL. destruct HR as [H [Hnd Hf]].
  induction l2 as [|[p e] l2 IH]; intros l1 n cur El Hd Hn.
  - cbn in Hd. subst cur. destruct n; reflexivity.
  - destruct n; [cbn in Hn; lia|]. pose proof Hd as [-> [s [E Hs]]]. cbn [validate_loop]. rewrite E. cbn [bind n_previous n_next].
    assert (R : forall a, opt_eqb a a = true) by (intros [a|]; cbn; auto using Nat.eqb_refl). rewrite R. cbn [negb].
    assert (C : (opt_eqb s (last_addr None l1) && negb (opt_eqb s None))%bool = false).
    { destruct s as [s|]; [|cbn; apply Bool.andb_false_r]. cbn [opt_eqb negb]. rewrite Bool.andb_true_r.
      destruct (last_addr None l1) as [q|] eqn:Eq; [|reflexivity]. apply Nat.eqb_neq. intros <-.
      destruct l2 as [|[p2 e2] l2]; [cbn in Hs; congruence|]. destruct Hs as [[= ->] _].
      destruct (last_addr_in _ _ _ Eq) as [->|Hin]; [cbn in Eq; discriminate|].
      fold (addrs l) in Hnd. rewrite El, addrs_app in Hnd. apply (nodup_app_disj _ _ p2 Hnd Hin). right. now left. }
    rewrite C. rewrite find_duplicate_ok with (l := l) (previous := None); auto.
    + cbn [bind]. change (Some p) with (last_addr (last_addr None l1) [(p, e)]).
      replace (last_addr (last_addr None l1) [(p, e)]) with (last_addr None (l1 ++ [(p, e)])) by now rewrite last_addr_snoc.
      apply IH; [rewrite <- app_assoc; exact El| |cbn in Hn; lia]. rewrite last_addr_snoc. exact Hs.
    + unfold fuel. lia.
    + apply (proj1 (NoDup_count_occ Nat.eq_dec _) Hnd).
Qed.

Lemma validate_correct h head l : represents D h head l -> list_validate D head h = Some true.
Proof.
  intro HR. pose proof (represents_length _ _ _ HR) as HL. unfold list_validate.
  apply (validate_loop_ok h head l HR l []); auto.
  - exact (proj1 HR).
  - unfold fuel. lia.
Qed.

(** ** order *)

Notation descending := (descending D).

Lemma insert_descending x l : descending (map snd l) -> descending (map snd (insert D x l)).
Proof.
  induction l as [|y l IH]; intro H; [cbn; auto|]. destruct H as [H1 H2]. cbn [insert].
  destruct (Nat.leb_spec (ev_start D (snd y)) (ev_start D (snd x))) as [Hle|Hlt].
  - cbn. splits; auto. constructor; auto. eapply Forall_impl; [|exact H1]. cbn. intros; lia.
  - cbn [map]. split; [|auto]. apply Forall_forall. intros e He. 
    eapply Permutation_in in He; [|apply Permutation_map; apply insert_perm]. destruct He as [<-|He]; [lia|].
    rewrite Forall_forall in H1. auto.
Qed.

Lemma starting_at_app t (a b : list event) : starting_at D t (a ++ b) = starting_at D t a ++ starting_at D t b.
Proof. unfold starting_at. apply filter_app. Qed.

Lemma insert_stable t x l : descending (map snd l) ->
  starting_at D t (map snd (insert D x l)) = starting_at D t [snd x] ++ starting_at D t (map snd l).
Proof.
  induction l as [|y l IH]; intro H; [cbn [insert map]; now rewrite app_nil_r|]. cbn [insert].
  destruct (Nat.leb_spec (ev_start D (snd y)) (ev_start D (snd x))) as [Hle|Hlt]; [rewrite <- starting_at_app; reflexivity|].
  destruct H as [H1 H2]. cbn [map]. change (snd y :: map snd (insert D x l)) with ([snd y] ++ map snd (insert D x l)).
  change (snd y :: map snd l) with ([snd y] ++ map snd l). rewrite !starting_at_app, IH by exact H2.
  unfold starting_at at 1 2 4 5. cbn [filter].
  destruct (Nat.eqb_spec (ev_start D (snd y)) t), (Nat.eqb_spec (ev_start D (snd x)) t); try reflexivity. lia.
Qed.

Lemma descending_rev (l : list event) : descending l -> sorted D (rev l).
Proof.
  assert (A : forall a b, sorted D a -> sorted D b -> (forall x y, In x a -> In y b -> ev_start D x <= ev_start D y) -> sorted D (a ++ b)).
  { induction a as [|x a IH]; cbn; intros b Ha Hb Hc; [exact Hb|]. destruct Ha as [Ha1 Ha2]. split; [|auto].
    apply Forall_app. split; [exact Ha1|]. apply Forall_forall. auto. }
  induction l as [|e l IH]; cbn; [auto|]. intros [H1 H2]. apply A; [auto|cbn; auto|].
  intros x y Hx [<-|[]]. rewrite <- in_rev in Hx. rewrite Forall_forall in H1. auto.
Qed.

Lemma starting_at_rev t (l : list event) : starting_at D t (rev l) = rev (starting_at D t l).
Proof.
  induction l as [|e l IH]; [reflexivity|]. cbn [rev]. rewrite starting_at_app, IH. unfold starting_at at 2 3. cbn [filter].
  destruct (ev_start D e =? t); cbn [rev]; [reflexivity|apply app_nil_r].
Qed.
End Proofs.
