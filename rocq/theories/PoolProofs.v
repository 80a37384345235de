(** Invariants of the thread pool: structure of the queue, the mutex and the calls. *)
From Verif Require Import Base QueueModel QueueSpec QueueProofs PoolModel PoolSpec PoolTrans.
From Coq Require Import Permutation.

(** ** lists with one changed element *)
Lemma mid_eq {A} (l1 : list A) x l2 : nth_error (l1 ++ x :: l2) (length l1) = Some x.
Proof. rewrite nth_error_app2 by lia. rewrite Nat.sub_diag. reflexivity. Qed.
Lemma mid_ne {A} (l1 : list A) x y l2 i : i <> length l1 -> nth_error (l1 ++ x :: l2) i = nth_error (l1 ++ y :: l2) i.
Proof.
  intros h. destruct (Nat.lt_ge_cases i (length l1)) as [h1|h1]; [rewrite !nth_error_app1 by lia; reflexivity|]. rewrite !nth_error_app2 by lia. destruct (i - length l1) eqn:e; [lia|reflexivity].
Qed.
Lemma in_mid {A} (l1 : list A) x l2 a : In a (l1 ++ x :: l2) <-> a = x \/ In a (l1 ++ l2).
Proof. rewrite !in_app_iff. cbn. intuition. Qed.
Lemma flat_map_mid {A B} (f : A -> list B) l1 x l2 : flat_map f (l1 ++ x :: l2) = flat_map f l1 ++ f x ++ flat_map f l2.
Proof. rewrite flat_map_app. reflexivity. Qed.

(** ** the mutex *)
Definition inside (pc : wpc) : bool := match pc with WCheck | WUnlock _ => true | _ => false end.
Definition finside (f : fpc) : bool := match f with FDiscardInit | FDiscardUnlock => true | _ => false end.
Definition holder (w : list wpc) (c : list (nat * cpc)) (f : fpc) (a : agent) : Prop :=
  match a with
  | AW i => exists pc, nth_error w i = Some pc /\ inside pc = true
  | AC t => exists pc, In (t, pc) c /\ pc <> CLock
  | AF => finside f = true
  end.
Definition own_ok (o : option agent) w c f : Prop := forall a, holder w c f a <-> o = Some a.

Lemma own_worker o w1 pc pc' w2 c f : own_ok o (w1 ++ pc :: w2) c f -> inside pc' = inside pc -> own_ok o (w1 ++ pc' :: w2) c f.
Proof.
  intros h e a. rewrite <- (h a). destruct a as [i|t|]; cbn [holder]; try reflexivity. destruct (Nat.eq_dec i (length w1)) as [->|hi].
  - rewrite !mid_eq. split; intros (p & [= <-] & hp); eauto; eexists; (split; [reflexivity|]); congruence.
  - rewrite (mid_ne w1 pc' pc w2 i hi). reflexivity.
Qed.
Lemma own_w_acquire w1 pc pc' w2 c f : own_ok None (w1 ++ pc :: w2) c f -> inside pc' = true -> own_ok (Some (AW (length w1))) (w1 ++ pc' :: w2) c f.
Proof.
  intros h e a. split.
  - intros ha. destruct a as [i|t|]; cbn [holder] in ha.
    + destruct (Nat.eq_dec i (length w1)) as [->|hi]; [reflexivity|]. exfalso. rewrite (mid_ne w1 pc' pc w2 i hi) in ha. apply (h (AW i)) in ha. discriminate.
    + apply (h (AC t)) in ha. discriminate.
    + apply (h AF) in ha. discriminate.
  - intros [= <-]. cbn [holder]. rewrite mid_eq. eauto.
Qed.
Lemma own_w_release o w1 pc pc' w2 c f : own_ok o (w1 ++ pc :: w2) c f -> inside pc = true -> inside pc' = false -> own_ok None (w1 ++ pc' :: w2) c f.
Proof.
  intros h e e' a. assert (ho : o = Some (AW (length w1))) by (apply h; cbn [holder]; rewrite mid_eq; eauto). split; [|discriminate]. intros ha. exfalso. destruct a as [i|t|]; cbn [holder] in ha.
  - destruct (Nat.eq_dec i (length w1)) as [->|hi]; [rewrite mid_eq in ha; destruct ha as (p & [= <-] & hp); congruence|]. rewrite (mid_ne w1 pc' pc w2 i hi) in ha. apply (h (AW i)) in ha. congruence.
  - apply (h (AC t)) in ha. congruence.
  - apply (h AF) in ha. congruence.
Qed.
Lemma own_f_same o w c f f' : own_ok o w c f -> finside f' = finside f -> own_ok o w c f'.
Proof. intros h e a. rewrite <- (h a). destruct a; cbn [holder]; rewrite ?e; reflexivity. Qed.
Lemma own_f_acquire w c f f' : own_ok None w c f -> finside f' = true -> own_ok (Some AF) w c f'.
Proof. intros h e a. split; [|intros [= <-]; exact e]. intros ha. destruct a as [i|t|]; [|apply (h (AC t)) in ha; discriminate|reflexivity]. apply (h (AW i)) in ha. discriminate. Qed.
Lemma own_f_release o w c f f' : own_ok o w c f -> finside f = true -> finside f' = false -> own_ok None w c f'.
Proof.
  intros h e e' a. assert (ho : o = Some AF) by (apply h; exact e). split; [|discriminate]. intros ha. exfalso. destruct a as [i|t|]; cbn [holder] in ha; [apply (h (AW i)) in ha|apply (h (AC t)) in ha|]; congruence.
Qed.
Lemma own_c_new o w c f t : own_ok o w c f -> own_ok o w (c ++ [(t, CLock)]) f.
Proof.
  intros h a. rewrite <- (h a). destruct a as [i|u|]; cbn [holder]; try reflexivity. split; intros (pc & h1 & h2); exists pc; (split; [|exact h2]); rewrite in_app_iff in *; [|auto]. destruct h1 as [?|[[= -> <-]|[]]]; [assumption|congruence].
Qed.
Lemma own_c_keep o w c1 t pc pc' c2 f : own_ok o w (c1 ++ (t, pc) :: c2) f -> pc <> CLock -> pc' <> CLock -> own_ok o w (c1 ++ (t, pc') :: c2) f.
Proof.
  intros h e e' a. rewrite <- (h a). destruct a as [i|u|]; cbn [holder]; try reflexivity. split; intros (p & h1 & h2); rewrite in_mid in h1; (destruct h1 as [[= -> ->]|h1]; [eexists; rewrite in_mid; split; [left; reflexivity|assumption]|exists p; rewrite in_mid; auto]).
Qed.
Lemma own_c_acquire w c1 t pc' c2 f : own_ok None w (c1 ++ (t, CLock) :: c2) f -> pc' <> CLock -> own_ok (Some (AC t)) w (c1 ++ (t, pc') :: c2) f.
Proof.
  intros h e a. split.
  - intros ha. destruct a as [i|u|]; cbn [holder] in ha; [apply (h (AW i)) in ha; discriminate| |apply (h AF) in ha; discriminate]. destruct ha as (p & h1 & h2). rewrite in_mid in h1. destruct h1 as [[= -> ->]|h1]; [reflexivity|].
    assert (hx : @None agent = Some (AC u)) by (apply h; exists p; rewrite in_mid; auto). discriminate.
  - intros [= <-]. exists pc'. rewrite in_mid. auto.
Qed.
Lemma own_c_release o w c1 t pc c2 f : own_ok o w (c1 ++ (t, pc) :: c2) f -> NoDup (map fst (c1 ++ (t, pc) :: c2)) -> pc <> CLock -> own_ok None w (c1 ++ c2) f.
Proof.
  intros h hk e a. assert (ho : o = Some (AC t)) by (apply h; exists pc; rewrite in_mid; auto). split; [|discriminate]. intros ha. exfalso. destruct a as [i|u|]; cbn [holder] in ha.
  - apply (h (AW i)) in ha. congruence.
  - destruct ha as (p & h1 & h2). assert (hu : o = Some (AC u)) by (apply h; exists p; rewrite in_mid; auto). rewrite ho in hu. injection hu as <-.
    rewrite map_app in hk. cbn [map fst] in hk. apply NoDup_remove_2 in hk. apply hk. rewrite <- map_app. change t with (fst (t, p)). apply in_map. exact h1.
  - apply (h AF) in ha. congruence.
Qed.

(** ** the queue *)
Lemma nodes_holds q h l : holds q h l -> nodes (Z.to_nat (qsize q)) h (qfirst q) = l.
Proof.
  intros (h1 & _ & h3 & _ & h5 & h6 & _). rewrite h6, h1, Nat2Z.id. clear h1 h6. induction l as [|a l IH]; [reflexivity|]. cbn [length nodes hd]. destruct h3 as [e h3].
  rewrite (proj2 (Nat.eqb_neq a 0)) by (intros ->; apply h5; left; reflexivity). rewrite e, IH; auto. intros hi. apply h5. right. exact hi.
Qed.
Definition pend1 (c : nat * cpc) : list nat := match snd c with CLock | CEnq => [fst c] | _ => [] end.
Definition pend (c : list (nat * cpc)) : list nat := flat_map pend1 c.
Definition takens (w : list wpc) : list nat := flat_map taken w.
Definition live (ql : list nat) (c : list (nat * cpc)) (w : list wpc) : list nat := ql ++ pend c ++ takens w.

Lemma pend_mid c1 t pc c2 : pend (c1 ++ (t, pc) :: c2) = pend c1 ++ pend1 (t, pc) ++ pend c2.
Proof. apply flat_map_mid. Qed.
Lemma takens_mid w1 pc w2 : takens (w1 ++ pc :: w2) = takens w1 ++ taken pc ++ takens w2.
Proof. apply flat_map_mid. Qed.
Lemma pend_new c t : pend (c ++ [(t, CLock)]) = pend c ++ [t].
Proof. unfold pend. rewrite flat_map_app. reflexivity. Qed.
Lemma pend_keys c t : In t (pend c) -> In t (map fst c).
Proof.
  unfold pend. rewrite in_flat_map, in_map_iff. intros ([u pc] & h1 & h2). exists (u, pc). split; [|exact h1]. unfold pend1 in h2. cbn in *. destruct pc; cbn in h2; intuition.
Qed.

(** ** histories *)
Lemma replay_app tr1 : forall tr2 l, replay (tr1 ++ tr2) l = match replay tr1 l with Some l' => replay tr2 l' | None => None end.
Proof.
  induction tr1 as [|o tr1 IH]; intros tr2 l; [reflexivity|]. destruct o; cbn [app replay]; try apply IH. destruct l as [|[u c] l]; [reflexivity|]. destruct (_ && _); [apply IH|reflexivity].
Qed.
Definition entries (k : nat -> bool) (l : list nat) : list (nat * bool) := map (fun t => (t, k t)) l.
Lemma entries_ext k k' l : (forall t, In t l -> k' t = k t) -> entries k' l = entries k l.
Proof. intros h. apply map_ext_in. intros t ht. rewrite h by exact ht. reflexivity. Qed.

Section Pool.
Variables M X : Type.
Variable prepare : nat -> X -> M -> M.
Variable code : list (nat -> M -> M).
Notation pool := (pool M).
Notation mkp := (mkpool M).
Notation trans := (trans M X prepare code).

(** [l]: the tasks in the queue *)
Record structure (l : list nat) (s : pool) : Prop := {
  s_queue : holds (q M s) (next M s) l;
  s_live : NoDup (live l (calls M s) (workers M s));
  s_zero : ~ In 0 (live l (calls M s) (workers M s));
  s_keys : NoDup (map fst (calls M s));
  s_owner : own_ok (owner M s) (workers M s) (calls M s) (fin M s);
  s_replay : replay (trace M s) [] = Some (entries (is_finish M s) l) }.

Lemma structure_init n h f m : structure [] (init M n h f m).
Proof.
  split; unfold init; cbn [q next calls workers owner fin trace is_finish].
  - apply holds_init.
  - unfold live, takens. cbn. replace (flat_map taken (repeat WLock n)) with (@nil nat) by (induction n; auto). constructor.
  - unfold live, takens. cbn. replace (flat_map taken (repeat WLock n)) with (@nil nat) by (induction n; auto). auto.
  - constructor.
  - intros a. split; [|discriminate]. destruct a; cbn [holder]; [intros (pc & h1 & h2)|intros (pc & [] & _)|discriminate]. apply nth_error_In in h1. apply repeat_spec in h1. subst. discriminate.
  - reflexivity.
Qed.
Lemma in_use_false s l t : structure l s -> in_use M s t = false -> ~ In t (live l (calls M s) (workers M s)) /\ ~ In t (map fst (calls M s)).
Proof.
  intros hs h. unfold in_use in h. apply orb_false_iff in h as [h h3]. apply orb_false_iff in h as [h1 h2]. unfold queued in h1. rewrite (nodes_holds _ _ _ (s_queue _ _ hs)) in h1.
  assert (hx : forall l, existsb (Nat.eqb t) l = false -> ~ In t l). { intros l' e hi. apply (existsb_false _ _ e) in hi. rewrite Nat.eqb_refl in hi. discriminate. }
  split; [|auto]. unfold live. rewrite !in_app_iff. intros [hi|[hi|hi]]; [exact (hx _ h1 hi)|exact (hx _ h2 (pend_keys _ _ hi))|exact (hx _ h3 hi)].
Qed.
Lemma in_use_true s l t : structure l s -> ~ In t (live l (calls M s) (workers M s)) -> ~ In t (map fst (calls M s)) -> in_use M s t = false.
Proof.
  intros hs h1 h2. unfold in_use, queued. rewrite (nodes_holds _ _ _ (s_queue _ _ hs)).
  assert (hx : forall l, ~ In t l -> existsb (Nat.eqb t) l = false). { intros l' hi. destruct (existsb _ l') eqn:e; [|reflexivity]. apply existsb_exists in e as (u & hu & e). apply Nat.eqb_eq in e. subst. contradiction. }
  rewrite !hx; auto; intros hi; apply h1; unfold live; rewrite !in_app_iff; auto.
Qed.
Lemma deq_list q h t q' l : holds q h l -> deq q h = Some (t, q') -> exists r, l = t :: r /\ holds q' h r.
Proof.
  intros hq e. destruct l as [|a r].
  - exfalso. destruct hq as (h1 & _). unfold deq in e. rewrite h1 in e. discriminate.
  - destruct (deq_holds q h a r hq) as (q2 & e2 & h2). rewrite e2 in e. injection e as <- <-. eauto.
Qed.
Lemma perm_live l l' : Permutation l l' -> NoDup l /\ ~ In 0 l -> NoDup l' /\ ~ In 0 l'.
Proof. intros p [h1 h2]. split; [apply (Permutation_NoDup p h1)|]. intros hi. apply h2. apply (Permutation_in _ (Permutation_sym p) hi). Qed.
Lemma incl_live (l l' : list nat) : (exists r, Permutation l (r ++ l')) -> NoDup l /\ ~ In 0 l -> NoDup l' /\ ~ In 0 l'.
Proof.
  intros [r p] h. apply (perm_live _ _ p) in h as [h1 h2]. split; [|intros hi; apply h2; apply in_or_app; auto]. clear -h1. induction r as [|a r IH]; [exact h1|]. inversion h1; auto.
Qed.
Lemma structure_step e s s' l : trans e s s' -> structure l s -> (Z.of_nat (length l + length (pend (calls M s))) < two32)%Z -> exists l', structure l' s'.
Proof.
  intros ht hs hb. destruct ht; pose proof hs as [a1 a2 a3 a4 a5 a6]; cbn [PoolModel.q next calls workers owner fin trace is_finish] in *.
  - (* enqueue *) exists l. destruct (in_use_false _ _ _ hs H0) as [hl hk]. cbn [calls workers] in hl, hk.
    assert (hp : NoDup (live l (c ++ [(t, CLock)]) w) /\ ~ In 0 (live l (c ++ [(t, CLock)]) w)).
    { apply (perm_live (t :: live l c w)). { unfold live. rewrite pend_new. rewrite <- !app_assoc. cbn [app]. rewrite !(app_assoc l). apply Permutation_middle. } split; [constructor; assumption|]. intros [?|?]; auto. }
    split; cbn [PoolModel.q next calls workers owner fin trace is_finish]; try tauto.
    + rewrite map_app. cbn [map fst]. apply (Permutation_NoDup (Permutation_cons_append _ _)). constructor; assumption.
    + apply own_c_new. exact a5.
    + rewrite a6. f_equal. symmetry. apply entries_ext. intros u hu. destruct (Nat.eqb_spec u t) as [->|]; [|reflexivity]. exfalso. apply hl. unfold live. rewrite in_app_iff. auto.
  - (* spurious *) exists l. split; cbn [PoolModel.q next calls workers owner fin trace is_finish]; auto; unfold live in *; rewrite ?takens_mid in *; auto. apply (own_worker _ _ WWait); auto.
  - (* finish *) exists l. split; cbn [PoolModel.q next calls workers owner fin trace is_finish]; auto; [apply (own_f_same _ _ _ f); [exact a5|destruct H as [->|[? ->]]; destruct dc; reflexivity]|]. rewrite replay_app, a6. reflexivity.
  - (* lock *) exists l. split; cbn [PoolModel.q next calls workers owner fin trace is_finish]; auto; unfold live in *; rewrite ?takens_mid in *; try (destruct H; subst; assumption). apply (own_w_acquire _ pc); auto.
  - (* wait *) exists l. split; cbn [PoolModel.q next calls workers owner fin trace is_finish]; auto; unfold live in *; rewrite ?takens_mid in *; auto. apply (own_w_release o _ WCheck); auto.
  - (* take *) destruct (deq_list _ _ _ _ _ a1 H0) as (r & -> & hr). exists r.
    assert (hp : NoDup (live r c (w1 ++ WUnlock t :: w2)) /\ ~ In 0 (live r c (w1 ++ WUnlock t :: w2))).
    { apply (perm_live (live (t :: r) c (w1 ++ WCheck :: w2))); [|auto]. unfold live. rewrite !takens_mid. cbn [taken app]. rewrite !(app_assoc r). rewrite !(app_assoc (r ++ pend c)). apply Permutation_middle. }
    split; cbn [PoolModel.q next calls workers owner fin trace is_finish]; try tauto.
    + apply (own_worker _ _ WCheck); auto.
    + rewrite replay_app, a6. cbn [entries map replay]. rewrite Nat.eqb_refl, Bool.eqb_reflx. reflexivity.
  - (* unlock *) exists l. split; cbn [PoolModel.q next calls workers owner fin trace is_finish]; auto; unfold live in *; rewrite ?takens_mid in *; auto. apply (own_w_release o _ (WUnlock t)); auto.
  - (* exit *) exists l. assert (hp : NoDup (live l c (w1 ++ WExited :: w2)) /\ ~ In 0 (live l c (w1 ++ WExited :: w2))).
    { apply (incl_live (live l c (w1 ++ WCall t :: w2))); [|auto]. exists [t]. unfold live. rewrite !takens_mid. cbn [taken app]. rewrite !(app_assoc l). rewrite !(app_assoc (l ++ pend c)). symmetry. apply Permutation_middle. }
    split; cbn [PoolModel.q next calls workers owner fin trace is_finish]; try tauto; [apply (own_worker _ _ (WCall t)); auto|]. rewrite replay_app, a6. reflexivity.
  - (* start *) exists l. assert (hp : NoDup (live l c (w1 ++ WRun t 0 :: w2)) /\ ~ In 0 (live l c (w1 ++ WRun t 0 :: w2))).
    { apply (incl_live (live l c (w1 ++ WCall t :: w2))); [|auto]. exists [t]. unfold live. rewrite !takens_mid. cbn [taken app]. rewrite !(app_assoc l). rewrite !(app_assoc (l ++ pend c)). symmetry. apply Permutation_middle. }
    split; cbn [PoolModel.q next calls workers owner fin trace is_finish]; try tauto; [apply (own_worker _ _ (WCall t)); auto|]. rewrite replay_app, a6. reflexivity.
  - (* run *) exists l. split; cbn [PoolModel.q next calls workers owner fin trace is_finish]; auto; unfold live in *; rewrite ?takens_mid in *; auto. apply (own_worker _ _ (WRun t j)); auto.
  - (* done *) exists l. split; cbn [PoolModel.q next calls workers owner fin trace is_finish]; auto; unfold live in *; rewrite ?takens_mid in *; auto. apply (own_worker _ _ (WRun t j)); auto. rewrite replay_app, a6. reflexivity.
  - (* call: lock *) exists l. split; cbn [PoolModel.q next calls workers owner fin trace is_finish]; auto; unfold live in *; rewrite ?pend_mid, ?map_app in *; auto. apply own_c_acquire; [exact a5|discriminate].
  - (* call: enqueue *) exists (l ++ [t]).
    assert (hp : NoDup (live (l ++ [t]) (c1 ++ (t, CSignal) :: c2) w) /\ ~ In 0 (live (l ++ [t]) (c1 ++ (t, CSignal) :: c2) w)).
    { apply (perm_live (live l (c1 ++ (t, CEnq) :: c2) w)); [|auto]. unfold live. rewrite !pend_mid. unfold pend1. cbn [fst snd app]. rewrite <- !app_assoc. cbn [app]. apply Permutation_app_head. symmetry. apply Permutation_middle. }
    assert (ht : t <> 0 /\ ~ In t l).
    { unfold live in *. rewrite pend_mid in *. unfold pend1 in *. cbn [fst snd app] in *. split; [intros ->; apply a3; rewrite !in_app_iff; cbn; auto|]. intros hi.
      assert (a2' : NoDup (t :: l ++ (pend c1 ++ pend c2) ++ takens w)) by (refine (Permutation_NoDup _ a2); rewrite <- !app_assoc; cbn [app]; rewrite !(app_assoc l); symmetry; apply Permutation_middle).
      apply NoDup_cons_iff in a2' as [a2' _]. apply a2'. rewrite in_app_iff. auto. }
    assert (hq' : holds q' h' (l ++ [t])).
    { destruct (enq_holds q h l t a1 (proj1 ht) (proj2 ht)) as (q2 & h2 & e2 & h3 & _); [rewrite pend_mid, !app_length in hb; cbn in hb; lia|]. rewrite e2 in H0. injection H0 as <- <-. exact h3. }
    split; cbn [PoolModel.q next calls workers owner fin trace is_finish]; try tauto.
    + rewrite map_app in *. exact a4.
    + apply (own_c_keep _ _ _ _ CEnq); [exact a5|discriminate|discriminate].
    + rewrite replay_app, a6. cbn [replay]. unfold entries. rewrite map_app. reflexivity.
  - (* signal *) exists l. split; cbn [PoolModel.q next calls workers owner fin trace is_finish]; auto; unfold live in *; rewrite ?pend_mid, ?map_app in *; auto. apply (own_c_keep _ _ _ _ CSignal); [exact a5|discriminate|discriminate].
  - exists l. split; cbn [PoolModel.q next calls workers owner fin trace is_finish]; auto; unfold live in *; rewrite ?pend_mid, ?takens_mid, ?map_app in *; auto. apply (own_c_keep _ _ _ _ CSignal); [|discriminate|discriminate]. apply (own_worker _ _ WWait); auto.
  - (* call: unlock *) exists l. split; cbn [PoolModel.q next calls workers owner fin trace is_finish]; auto; unfold live in *; rewrite ?pend_mid in *; unfold pend in *; rewrite ?flat_map_app; auto.
    + rewrite map_app in *. cbn [map] in a4. apply NoDup_remove_1 in a4. exact a4.
    + apply (own_c_release _ _ _ _ _ _ _ a5 a4). discriminate.
  - exists l. split; cbn [PoolModel.q next calls workers owner fin trace is_finish]; auto; unfold live in *; rewrite ?pend_mid in *; unfold pend in *; rewrite ?flat_map_app; auto.
    + rewrite map_app in *. cbn [map] in a4. apply NoDup_remove_1 in a4. exact a4.
    + apply (own_f_same _ _ _ (FCall i n t)); [|reflexivity]. apply (own_c_release _ _ _ _ _ _ _ a5 a4). discriminate.
  - (* discard *) exists l. split; cbn [PoolModel.q next calls workers owner fin trace is_finish]; auto. apply (own_f_acquire _ _ FDiscardLock); auto.
  - exists []. assert (hp : NoDup (live [] c w) /\ ~ In 0 (live [] c w)) by (apply (incl_live (live l c w)); [exists l; reflexivity|auto]).
    split; cbn [PoolModel.q next calls workers owner fin trace is_finish]; try tauto; [apply holds_init|]. rewrite replay_app, a6. reflexivity.
  - exists l. split; cbn [PoolModel.q next calls workers owner fin trace is_finish]; auto. apply (own_f_release o _ _ FDiscardUnlock); auto.
  - (* malloc *) exists l. split; cbn [PoolModel.q next calls workers owner fin trace is_finish]; auto; apply (own_f_same _ _ _ (FMalloc i n)); auto.
  - exists l. destruct (in_use_false _ _ _ hs H1) as [hl hk]. cbn [calls workers] in hl, hk.
    assert (hp : NoDup (live l (c ++ [(t, CLock)]) w) /\ ~ In 0 (live l (c ++ [(t, CLock)]) w)).
    { apply (perm_live (t :: live l c w)). { unfold live. rewrite pend_new. rewrite <- !app_assoc. cbn [app]. rewrite !(app_assoc l). apply Permutation_middle. } split; [constructor; assumption|]. intros [?|?]; auto. }
    split; cbn [PoolModel.q next calls workers owner fin trace is_finish]; try tauto.
    + rewrite map_app. cbn [map fst]. apply (Permutation_NoDup (Permutation_cons_append _ _)). constructor; assumption.
    + apply own_c_new. apply (own_f_same _ _ _ (FMalloc i n)); auto.
    + rewrite a6. f_equal. symmetry. apply entries_ext. intros u hu. destruct (Nat.eqb_spec u t) as [->|]; [|reflexivity]. exfalso. apply hl. unfold live. rewrite in_app_iff. auto.
  - exists l. split; cbn [PoolModel.q next calls workers owner fin trace is_finish]; auto; apply (own_f_same _ _ _ (FMalloc i n)); auto.
  - exists l. split; cbn [PoolModel.q next calls workers owner fin trace is_finish]; auto; apply (own_f_same _ _ _ (FMalloc i n)); auto.
  - exists l. split; cbn [PoolModel.q next calls workers owner fin trace is_finish]; auto; apply (own_f_same _ _ _ (FJoin (length w1) n)); auto.
  - exists l. split; cbn [PoolModel.q next calls workers owner fin trace is_finish]; auto; apply (own_f_same _ _ _ (FJoin i n)); auto.
Qed.
End Pool.
