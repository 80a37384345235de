(** Invariants of the thread pool: what has been executed, and that no wake-up is lost. *)
From Verif Require Import Base QueueModel QueueSpec QueueProofs PoolModel PoolSpec PoolTrans PoolProofs Pool2Proofs.
From Coq Require Import Permutation.

Definition running1 (pc : wpc) : list nat := match pc with WRun t _ => [t] | _ => [] end.
Definition running (w : list wpc) : list nat := flat_map running1 w.
Definition checks (pc : wpc) : bool := match pc with WLock | WCheck | WWake => true | _ => false end.
Definition checkers (w : list wpc) : nat := length (filter checks w).
Definition is_signal (c : nat * cpc) : bool := match snd c with CSignal => true | _ => false end.
Definition signals (c : list (nat * cpc)) : nat := length (filter is_signal c).
Lemma running_mid w1 pc w2 : running (w1 ++ pc :: w2) = running w1 ++ running1 pc ++ running w2.
Proof. apply flat_map_mid. Qed.
Lemma checkers_mid w1 pc w2 : checkers (w1 ++ pc :: w2) = checkers w1 + (if checks pc then 1 else 0) + checkers w2.
Proof. apply filter_mid. Qed.
Lemma signals_mid c1 x c2 : signals (c1 ++ x :: c2) = signals c1 + (if is_signal x then 1 else 0) + signals c2.
Proof. apply filter_mid. Qed.

Lemma enqueued_snoc tr o : enqueued (tr ++ [o]) = enqueued tr ++ enqueued [o]. Proof. apply flat_map_app. Qed.
Lemma dequeued_snoc tr o : dequeued (tr ++ [o]) = dequeued tr ++ dequeued [o]. Proof. apply flat_map_app. Qed.
Lemma started_snoc tr o : started (tr ++ [o]) = started tr ++ started [o]. Proof. apply flat_map_app. Qed.
Lemma completed_snoc tr o : completed (tr ++ [o]) = completed tr ++ completed [o]. Proof. apply flat_map_app. Qed.
Lemma exits_snoc tr o : exits (tr ++ [o]) = exits tr ++ exits [o]. Proof. apply flat_map_app. Qed.
Lemma user_tasks_app a b : user_tasks (a ++ b) = user_tasks a ++ user_tasks b. Proof. unfold user_tasks. rewrite filter_app, map_app. reflexivity. Qed.
Lemma finish_tasks_app a b : finish_tasks (a ++ b) = finish_tasks a ++ finish_tasks b. Proof. unfold finish_tasks. rewrite filter_app, map_app. reflexivity. Qed.
Ltac snoc := rewrite ?enqueued_snoc, ?dequeued_snoc, ?started_snoc, ?completed_snoc, ?exits_snoc, ?user_tasks_app, ?finish_tasks_app.

Definition takes (k : nat -> bool) (w : list wpc) : list nat := filter k (takens w).
Definition users (k : nat -> bool) (w : list wpc) : list nat := filter (fun t => negb (k t)) (takens w).
Lemma takes_mid k w1 pc w2 : takes k (w1 ++ pc :: w2) = takes k w1 ++ filter k (taken pc) ++ takes k w2.
Proof. unfold takes. rewrite takens_mid, !filter_app. reflexivity. Qed.
Lemma users_mid k w1 pc w2 : users k (w1 ++ pc :: w2) = users k w1 ++ filter (fun t => negb (k t)) (taken pc) ++ users k w2.
Proof. unfold users. rewrite takens_mid, !filter_app. reflexivity. Qed.

(** no task that ends a thread was in the queue before finish was called the first time *)
Definition first_finish (tr : list obs) : Prop := forall pre post, tr = pre ++ OFinish :: post -> ~ In OFinish pre -> finish_tasks (enqueued pre) = [].
Lemma obs_eq_dec (a b : obs) : {a = b} + {a <> b}.
Proof. decide equality; try apply Nat.eq_dec; apply Bool.bool_dec. Qed.
Lemma first_finish_snoc tr o : first_finish tr -> (o = OFinish -> ~ In OFinish tr -> finish_tasks (enqueued tr) = []) -> first_finish (tr ++ [o]).
Proof.
  intros h1 h2 pre post e hni. destruct (exists_last (l := OFinish :: post) ltac:(discriminate)) as (r & x & er). rewrite er, app_assoc in e. apply app_inj_tail in e as [e1 <-].
  destruct post as [|p post].
  - assert (r = [] /\ o = OFinish) as [-> ->]. { destruct r as [|y r]; [split; [reflexivity|injection er; auto]|]. exfalso. injection er as _ er. destruct r; discriminate. }
    rewrite app_nil_r in e1. subst pre. apply h2; [reflexivity|exact hni].
  - destruct r as [|y r]; [discriminate|]. injection er as <- er. apply (h1 pre r); [exact e1|exact hni].
Qed.

Section Pool.
Variables M X : Type.
Variable prepare : nat -> X -> M -> M.
Variable code : list (nat -> M -> M).
Notation pool := (pool M).
Notation mkp := (mkpool M).
Notation trans := (trans M X prepare code).
Notation structure := (structure M).
Notation account := (account M).
Ltac proj := cbn [PoolModel.q next calls workers owner fin trace is_finish size destroyed no_wait] in *.

Record history (s : pool) : Prop := {
  c_user : Permutation (user_tasks (dequeued (trace M s))) (started (trace M s) ++ users (is_finish M s) (workers M s));
  c_fin : Permutation (finish_tasks (dequeued (trace M s))) (exits (trace M s) ++ takes (is_finish M s) (workers M s));
  c_exits : length (exits (trace M s)) = exited (workers M s);
  c_run : Permutation (started (trace M s)) (completed (trace M s) ++ running (workers M s));
  c_first : first_finish (trace M s);
  c_idle : fin M s = FIdle -> ~ In OFinish (trace M s) /\ finish_tasks (enqueued (trace M s)) = [];
  c_called : fin M s <> FIdle -> In OFinish (trace M s) }.

Lemma history_init n h f m : history (init M n h f m).
Proof.
  assert (e1 : takens (repeat WLock n) = []) by (induction n; auto). assert (e2 : running (repeat WLock n) = []) by (induction n; auto). assert (e3 : exited (repeat WLock n) = 0) by (induction n; auto).
  split; unfold init; proj; unfold users, takes; rewrite ?e1, ?e2, ?e3; cbn; auto; try constructor; auto. intros pre post e. destruct pre; discriminate.
Qed.
Lemma perm_mid (a : list nat) b x c : Permutation (a ++ b ++ x :: c) (x :: a ++ b ++ c).
Proof. rewrite !app_assoc. symmetry. apply Permutation_middle. Qed.
Lemma kind_same k t v (w : list wpc) : ~ In t (takens w) -> takes (fun a => if a =? t then v else k a) w = takes k w /\ users (fun a => if a =? t then v else k a) w = users k w.
Proof. intros h. split; apply filter_ext_in; intros u hu; destruct (Nat.eqb_spec u t); [subst; contradiction|reflexivity|subst; contradiction|reflexivity]. Qed.
Lemma in_live_marks k l t : In t l -> k t = true -> marks k l <> 0.
Proof. intros hi hk h. unfold marks in h. apply length_zero_iff_nil in h. assert (hx : In t (filter k l)) by (apply filter_In; auto). rewrite h in hx. exact hx. Qed.
Ltac quick := proj; auto; try (snoc; cbn [enqueued dequeued started completed exits flat_map app]; rewrite ?app_nil_r; auto).
Lemma history_step e s s' l n b : trans e s s' -> structure l s -> account n b l s -> history s -> history s'.
Proof.
  intros ht hs ha hh. destruct ht; destruct hh as [c1' c2' c3 c4 c5 c6 c7]; proj.
  - destruct (in_use_false _ _ _ _ hs H0) as [hl _]. proj. unfold live in hl. rewrite !in_app_iff in hl. destruct (kind_same k t false w) as [e1 e2]; [tauto|]. split; proj; rewrite ?e1, ?e2; auto.
  - split; proj; rewrite ?users_mid, ?takes_mid, ?running_mid, ?exited_mid in *; auto.
  - split; proj; auto; try (snoc; cbn; rewrite ?app_nil_r; assumption).
    + apply first_finish_snoc; [exact c5|]. intros _ hni. destruct H as [->|[r ->]]; [apply c6; reflexivity|]. exfalso. apply hni, c7. discriminate.
    + destruct dc; discriminate.
    + intros _. apply in_or_app. right. left. reflexivity.
  - destruct H; subst; split; proj; rewrite ?users_mid, ?takes_mid, ?running_mid, ?exited_mid in *; auto.
  - split; proj; rewrite ?users_mid, ?takes_mid, ?running_mid, ?exited_mid in *; auto.
  - (* take *) split; proj.
    + snoc. rewrite users_mid in *. cbn [dequeued started flat_map app taken filter] in *. rewrite app_nil_r. unfold user_tasks at 2. cbn [filter snd]. destruct (k t); cbn [negb map app fst]; [rewrite app_nil_r; exact c1'|].
      rewrite <- Permutation_cons_append. rewrite perm_mid. apply perm_skip. exact c1'.
    + snoc. rewrite takes_mid in *. cbn [dequeued exits flat_map app taken filter] in *. rewrite app_nil_r. unfold finish_tasks at 2. cbn [filter snd]. destruct (k t); cbn [map app fst]; [|rewrite app_nil_r; exact c2'].
      rewrite <- Permutation_cons_append. rewrite perm_mid. apply perm_skip. exact c2'.
    + snoc. cbn. rewrite app_nil_r, exited_mid in *. exact c3.
    + snoc. cbn. rewrite !app_nil_r, running_mid in *. exact c4.
    + apply first_finish_snoc; [exact c5|intros; discriminate].
    + intros hf. destruct (c6 hf) as [h1 h2]. split; [rewrite in_app_iff; cbn; intuition discriminate|]. snoc. cbn. rewrite app_nil_r. exact h2.
    + intros hf. apply in_or_app. auto.
  - split; proj; rewrite ?users_mid, ?takes_mid, ?running_mid, ?exited_mid in *; auto.
  - (* exit *) split; proj.
    + snoc. rewrite users_mid in *. cbn [dequeued started flat_map app taken filter] in *. rewrite !app_nil_r. rewrite H in c1'. exact c1'.
    + snoc. rewrite takes_mid in *. cbn [dequeued exits flat_map app taken filter] in *. rewrite !app_nil_r. rewrite H in c2'. rewrite c2'. rewrite <- app_assoc. cbn [app]. rewrite perm_mid. apply Permutation_middle.
    + snoc. rewrite app_length. cbn. rewrite exited_mid in *. cbn [is_exited] in *. lia.
    + snoc. cbn. rewrite !app_nil_r, running_mid in *. exact c4.
    + apply first_finish_snoc; [exact c5|intros; discriminate].
    + intros hf. destruct (c6 hf) as [h1 h2]. split; [rewrite in_app_iff; cbn; intuition discriminate|]. snoc. cbn. rewrite app_nil_r. exact h2.
    + intros hf. apply in_or_app. auto.
  - (* start *) split; proj.
    + snoc. rewrite users_mid in *. cbn [dequeued started flat_map app taken filter] in *. rewrite !app_nil_r. rewrite H in c1'. cbn [negb] in c1'. rewrite c1'. rewrite <- app_assoc. cbn [app]. rewrite perm_mid. apply Permutation_middle.
    + snoc. rewrite takes_mid in *. cbn [dequeued exits flat_map app taken filter] in *. rewrite !app_nil_r. rewrite H in c2'. exact c2'.
    + snoc. cbn. rewrite app_nil_r, exited_mid in *. exact c3.
    + snoc. rewrite running_mid in *. cbn [started completed flat_map app running1] in *. rewrite app_nil_r. rewrite <- Permutation_cons_append. rewrite perm_mid. apply perm_skip. exact c4.
    + apply first_finish_snoc; [exact c5|intros; discriminate].
    + intros hf. destruct (c6 hf) as [h1 h2]. split; [rewrite in_app_iff; cbn; intuition discriminate|]. snoc. cbn. rewrite app_nil_r. exact h2.
    + intros hf. apply in_or_app. auto.
  - split; proj; rewrite ?users_mid, ?takes_mid, ?running_mid, ?exited_mid in *; auto.
  - (* done *) split; proj.
    + snoc. cbn. rewrite !app_nil_r, users_mid in *. exact c1'.
    + snoc. cbn. rewrite !app_nil_r, takes_mid in *. exact c2'.
    + snoc. cbn. rewrite app_nil_r, exited_mid in *. exact c3.
    + snoc. rewrite running_mid in *. cbn [started completed flat_map app running1] in *. rewrite app_nil_r. rewrite c4. rewrite <- app_assoc. cbn [app]. rewrite perm_mid. apply Permutation_middle.
    + apply first_finish_snoc; [exact c5|intros; discriminate].
    + intros hf. destruct (c6 hf) as [h1 h2]. split; [rewrite in_app_iff; cbn; intuition discriminate|]. snoc. cbn. rewrite app_nil_r. exact h2.
    + intros hf. apply in_or_app. auto.
  - split; proj; auto.
  - (* call: enqueue *) split; proj; try (snoc; cbn; rewrite ?app_nil_r; assumption).
    + apply first_finish_snoc; [exact c5|intros; discriminate].
    + intros hf. destruct (c6 hf) as [h1 h2]. split; [rewrite in_app_iff; cbn; intuition discriminate|]. snoc. rewrite h2. cbn. unfold finish_tasks. cbn. destruct (k t) eqn:ek; [|reflexivity]. exfalso.
      pose proof (b_fin _ _ _ _ _ ha) as hb. pose proof (b_marks _ _ _ _ _ ha) as hm. proj. rewrite hf in hb. destruct hb as [hb _].
      apply (in_live_marks k (live l (c1 ++ (t, CEnq) :: c2) w) t); [|exact ek|lia]. unfold live. rewrite pend_mid, !in_app_iff. cbn. tauto.
    + intros hf. apply in_or_app. auto.
  - split; proj; auto.
  - split; proj; rewrite ?users_mid, ?takes_mid, ?running_mid, ?exited_mid in *; auto.
  - split; proj; auto.
  - split; proj; auto; try discriminate. intros _. apply c7. discriminate.
  - split; proj; auto; try discriminate. intros _. apply c7. discriminate.
  - split; proj; try (snoc; cbn; rewrite ?app_nil_r; assumption); try discriminate.
    + apply first_finish_snoc; [exact c5|intros; discriminate].
    + intros _. apply in_or_app. left. apply c7. discriminate.
  - split; proj; auto; try discriminate. intros _. apply c7. discriminate.
  - split; proj; auto; try discriminate. intros _. apply c7. discriminate.
  - destruct (in_use_false _ _ _ _ hs H1) as [hl _]. proj. unfold live in hl. rewrite !in_app_iff in hl. destruct (kind_same k t true w) as [e1 e2]; [tauto|]. split; proj; rewrite ?e1, ?e2; auto; try discriminate. intros _. apply c7. discriminate.
  - split; proj; auto; try discriminate. intros _. apply c7. discriminate.
  - split; proj; auto; try discriminate. intros _. apply c7. discriminate.
  - split; proj; auto; try discriminate. intros _. apply c7. discriminate.
  - split; proj; auto; try discriminate. intros _. apply c7. discriminate.
Qed.

(** ** waiting threads *)
Definition awake (l : list nat) (s : pool) : Prop := In WWait (workers M s) -> length l <= checkers (workers M s) + signals (calls M s).
Lemma awake_step e s s' l l' n b : trans e s s' -> structure l s -> structure l' s' -> account n b l s -> awake l s -> awake l' s'.
Proof.
  intros ht hs hs' hacc ha. pose proof (s_queue _ _ _ hs) as hq. pose proof (s_queue _ _ _ hs') as hq'.
  destruct ht; unfold awake in *; proj; try (pose proof (holds_unique _ _ _ _ hq hq') as <-); intros hi;
    repeat match goal with h : context [In WWait (_ ++ _ :: _)] |- _ => rewrite in_mid in h end;
    rewrite ?checkers_mid, ?signals_mid in *; cbn [checks is_signal snd] in *.
  - specialize (ha hi). lia.
  - destruct hi as [?|hi]; [discriminate|]. specialize (ha (or_introl eq_refl)). lia.
  - auto.
  - destruct hi as [?|hi]; [discriminate|]. specialize (ha (or_intror hi)). destruct (checks pc); lia.
  - destruct hq as (_ & _ & _ & _ & _ & hz & _). rewrite hz in H. lia.
  - destruct (deq_list _ _ _ _ _ hq H0) as (r & -> & hr). pose proof (holds_unique _ _ _ _ hr hq') as <-. destruct hi as [?|hi]; [discriminate|]. specialize (ha (or_intror hi)). cbn [length] in ha. lia.
  - destruct hi as [?|hi]; [discriminate|]. specialize (ha (or_intror hi)). lia.
  - destruct hi as [?|hi]; [discriminate|]. specialize (ha (or_intror hi)). lia.
  - destruct hi as [?|hi]; [discriminate|]. specialize (ha (or_intror hi)). lia.
  - destruct hi as [?|hi]; [discriminate|]. specialize (ha (or_intror hi)). lia.
  - destruct hi as [?|hi]; [discriminate|]. specialize (ha (or_intror hi)). lia.
  - specialize (ha hi). lia.
  - specialize (ha hi). assert (hl : length l' = S (length l)); [|lia].
    assert (hz : (Z.of_nat (S (length l)) < two32)%Z). { pose proof (b_bound _ _ _ _ _ hacc) as hb. proj. rewrite pend_mid, !app_length in hb. cbn in hb. lia. }
    destruct hq as (_ & _ & _ & _ & _ & hs1 & _). destruct hq' as (_ & _ & _ & _ & _ & hs2 & hs3). unfold enq in H0. destruct (if negb (qfirst q =? 0) then _ else _) as [[a b']|]; [|discriminate]. cbn [bind] in H0. destruct (need _); [|discriminate]. cbn [bind] in H0.
    apply (f_equal (fun o => match o with Some (a, _) => qsize a | None => 0%Z end)) in H0. cbn beta iota in H0. cbn [qsize] in H0. rewrite <- H0, hs1, u32_small in hs2 by lia. lia.
  - exfalso. apply H0. exact hi.
  - destruct hi as [?|hi]; [discriminate|]. specialize (ha (or_introl eq_refl)). lia.
  - specialize (ha hi). unfold signals in *. rewrite filter_app, app_length. lia.
  - specialize (ha hi). unfold signals in *. rewrite filter_app, app_length. lia.
  - auto.
  - pose proof (holds_unique _ _ _ _ (holds_init h) hq') as <-. cbn. lia.
  - auto.
  - auto.
  - specialize (ha hi). lia.
  - auto.
  - auto.
  - auto.
  - auto.
Qed.

(** ** all invariants together *)
Definition good_state (n : nat) (s : pool) : Prop := exists l b, structure l s /\ account n b l s /\ history s /\ awake l s.
Lemma good_init n h f m : (Z.of_nat n < two32)%Z -> good_state n (init M n h f m).
Proof.
  intros hn. exists [], 0. splits; [apply structure_init|apply (account_init M X prepare); exact hn|apply history_init|]. unfold awake, init. proj. intros hi. apply repeat_spec in hi. discriminate.
Qed.
Lemma good_step n e s s' : step M X prepare code e s = Next M s' -> good_state n s -> good_state n s'.
Proof.
  intros e1 (l & b & h1 & h2 & h3 & h4). apply step_trans in e1. destruct (structure_step _ _ _ _ _ _ _ _ e1 h1) as [l' h1']; [pose proof (b_bound _ _ _ _ _ h2); lia|].
  destruct (account_step _ _ _ _ _ _ _ _ _ _ _ e1 h1 h1' h2) as [b' h2']. exists l', b'. splits; auto; [apply (history_step _ _ _ _ _ _ e1 h1 h2 h3)|apply (awake_step _ _ _ _ _ _ _ e1 h1 h1' h2 h4)].
Qed.
Lemma good_exec n es : forall s s', exec M X prepare code es s = Next M s' -> good_state n s -> good_state n s'.
Proof.
  induction es as [|e es IH]; intros s s' h hg; cbn [exec] in h; [injection h as <-; exact hg|]. destruct (step _ _ _ _ e s) as [| |s1] eqn:e1; try discriminate. apply (IH s1 s' h). apply (good_step n e s s1 e1 hg).
Qed.
End Pool.
