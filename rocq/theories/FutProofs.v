(** Proofs about futures. *)
From Verif Require Import Base QueueModel QueueSpec QueueProofs PoolModel PoolSpec PoolTrans PoolProofs Pool2Proofs Pool3Proofs Pool4Proofs FutModel FutSpec.
From Coq Require Import Permutation.

Definition act1 (pc : wpc) : list nat := match pc with WRun t O | WRun t 1 => [t] | _ => [] end.
Definition act (w : list wpc) : list nat := flat_map act1 w.
Lemma act_mid w1 pc w2 : act (w1 ++ pc :: w2) = act w1 ++ act1 pc ++ act w2.
Proof. apply flat_map_mid. Qed.
Lemma act_in w u k : In (WRun u k) w -> k < 2 -> In u (act w).
Proof. intros h hk. unfold act. apply in_flat_map. exists (WRun u k). split; [exact h|]. destruct k as [|[|k]]; [left|left|lia]; reflexivity. Qed.

Section Futures.
Variable D : Type.
Notation X := ((D -> D) * D)%type.
Notation M := (futures D).
Notation fpool := (fpool D).
Notation mkp := (mkpool M).
Notation trans := (trans M X (future_new D) (future_eval D)).
Notation structure := (structure M).
Notation good_state := (good_state M).
Ltac proj := cbn [PoolModel.q next calls workers owner fin trace is_finish size destroyed no_wait mem] in *.

Definition ul (l : list nat) (s : fpool) (u : nat) : Prop := In u (live l (calls M s) (workers M s)) /\ is_finish M s u = false.
Record fut (g : nat -> option X) (l : list nat) (s : fpool) : Prop := {
  f_nodup : NoDup (act (workers M s));
  f_sep : forall u, In u (act (workers M s)) -> ~ ul l s u;
  f_busy : forall u, In u (act (workers M s)) \/ ul l s u -> finished D (mem M s u) = false /\ g u <> None;
  f_val : forall u f x, g u = Some (f, x) -> fn D (mem M s u) = f /\ (finished D (mem M s u) = true -> data D (mem M s u) = f x) /\
    (In (WRun u 1) (workers M s) -> data D (mem M s u) = f x) /\ (finished D (mem M s u) = false -> ~ In (WRun u 1) (workers M s) -> data D (mem M s u) = x);
  f_all : ~ In ODiscarded (trace M s) -> forall u, g u <> None -> finished D (mem M s u) = true \/ In u (act (workers M s)) \/ ul l s u }.

Lemma fut_init n h f m : fut (fun _ => None) [] (init M n h f m).
Proof.
  assert (e : act (repeat WLock n) = [] /\ takens (repeat WLock n) = []) by (induction n; auto). destruct e as [e1 e2].
  split; unfold init, ul, live; proj; rewrite ?e1, ?e2; cbn.
  - constructor.
  - intros u [].
  - intros u [[]|[[] _]].
  - discriminate.
  - congruence.
Qed.
Lemma fut_same g l l' s s' : fut g l s -> mem M s' = mem M s -> act (workers M s') = act (workers M s) -> (forall u, In (WRun u 1) (workers M s') <-> In (WRun u 1) (workers M s)) ->
  (forall u, ul l' s' u <-> ul l s u) -> (In ODiscarded (trace M s) -> In ODiscarded (trace M s')) -> fut g l' s'.
Proof.
  intros [h1 h2 h3 h4 h5] e1 e2 e3 e4 e5. split; rewrite ?e1, ?e2.
  - exact h1.
  - intros u hu. rewrite e4. apply h2. exact hu.
  - intros u. rewrite e4. apply h3.
  - intros u f x hg. rewrite e3. apply h4. exact hg.
  - intros hd u hg. rewrite e4. apply h5; auto.
Qed.
Lemma run1_mid w1 pc w2 u : In (WRun u 1) (w1 ++ pc :: w2) <-> pc = WRun u 1 \/ In (WRun u 1) (w1 ++ w2).
Proof. rewrite in_mid. intuition. Qed.

Lemma fut_step n b g l l' e s s' : trans e s s' -> structure l s -> structure l' s' -> account M n b l s -> (forall t x, e = Enqueue X t x -> g t <> None -> is_finished D s t = true) -> fut g l s ->
  fut (match e with Enqueue t x => fun u => if t =? u then Some x else g u | _ => g end) l' s'.
Proof.
  intros ht hs hs' hac he hf. pose proof (s_queue _ _ _ hs) as hq. pose proof (s_queue _ _ _ hs') as hq'.
  destruct ht; proj; try (pose proof (holds_unique _ _ _ _ hq hq') as <-);
    try (apply (fut_same _ _ _ _ _ hf); proj; [reflexivity|rewrite ?act_mid; reflexivity|intros u; rewrite ?run1_mid; intuition discriminate|intros u|rewrite ?in_app_iff; auto];
      unfold ul, live; proj; rewrite ?pend_mid, ?takens_mid, ?pend_new; reflexivity).
  - (* enqueue *)
    destruct (in_use_false _ _ _ _ hs H0) as [hu1 hu2]. destruct hf as [h1 h2 h3 h4 h5]. proj. unfold ul in *. proj.
    assert (hact : ~ In t (act w)). { intros hi. destruct (h3 t (or_introl hi)) as [e1 e2]. specialize (he t x eq_refl e2). unfold is_finished in he. proj. congruence. }
    assert (hlive : forall u, In u (live l (c ++ [(t, CLock)]) w) <-> u = t \/ In u (live l c w)). { intros u. unfold live. rewrite pend_new, !in_app_iff. cbn. intuition. }
    split; proj; unfold ul; proj.
    + exact h1.
    + intros u hu [hi hk]. rewrite hlive in hi. destruct (Nat.eqb_spec u t); [congruence|]. destruct hi; [congruence|]. apply (h2 u hu). auto.
    + intros u hu. rewrite hlive in hu. unfold future_new, store. destruct (Nat.eqb_spec u t) as [eut|hne]; [subst u; rewrite Nat.eqb_refl; cbn; split; [reflexivity|discriminate]|].
      destruct (Nat.eqb_spec t u); [congruence|]. apply h3. destruct hu as [hu|[[?|hu] hk]]; [auto|congruence|auto].
    + intros u f0 y hg. unfold future_new, store. destruct (Nat.eqb_spec t u) as [->|hne].
      * injection hg as ->. rewrite Nat.eqb_refl. cbn. splits; auto; try discriminate. intros hi. exfalso. apply hact. apply (act_in _ _ 1); auto.
      * destruct (Nat.eqb_spec u t); [congruence|]. apply h4. exact hg.
    + intros hd u hg. rewrite hlive. unfold future_new, store. destruct (Nat.eqb_spec u t) as [->|hne]; [auto|]. destruct (Nat.eqb_spec t u); [congruence|]. destruct (h5 hd u hg) as [?|[?|[? ?]]]; auto.
  - (* lock *) apply (fut_same _ _ _ _ _ hf); proj; [reflexivity|rewrite !act_mid; destruct H; subst; reflexivity|intros u; rewrite !run1_mid; destruct H; subst; intuition discriminate| |auto].
    intros u. unfold ul, live. proj. rewrite !takens_mid. destruct H; subst; reflexivity.
  - (* take *) destruct (deq_list _ _ _ _ _ hq H0) as (r & -> & hr). pose proof (holds_unique _ _ _ _ hr hq') as <-.
    apply (fut_same _ _ _ _ _ hf); proj; [reflexivity|rewrite !act_mid; reflexivity|intros u; rewrite !run1_mid; intuition discriminate| |rewrite in_app_iff; auto].
    intros u. unfold ul, live. proj. rewrite !takens_mid, !in_app_iff. cbn. intuition.
  - (* exit *) apply (fut_same _ _ _ _ _ hf); proj; [reflexivity|rewrite !act_mid; reflexivity|intros u; rewrite !run1_mid; intuition discriminate| |rewrite in_app_iff; auto].
    intros u. unfold ul, live. proj. rewrite !takens_mid, !in_app_iff. cbn. intuition congruence.
  - (* start *)
    pose proof (s_live _ _ _ hs) as hlv. proj. unfold live in hlv. rewrite takens_mid in hlv. cbn [taken] in hlv.
    assert (hnt : ~ In t (live l c (w1 ++ WRun t 0 :: w2))). { unfold live. rewrite takens_mid. cbn [taken]. replace (l ++ pend c ++ takens w1 ++ [t] ++ takens w2) with ((l ++ pend c ++ takens w1) ++ t :: takens w2) in hlv by (rewrite <- !app_assoc; reflexivity). apply NoDup_remove_2 in hlv. rewrite <- !app_assoc in hlv. exact hlv. }
    destruct hf as [h1 h2 h3 h4 h5]. proj. unfold ul in *. proj.
    assert (hul : forall u, In u (live l c (w1 ++ WCall t :: w2)) <-> u = t \/ In u (live l c (w1 ++ WRun t 0 :: w2))) by (intros u; unfold live; rewrite !takens_mid, !in_app_iff; cbn; intuition).
    assert (hnact : ~ In t (act (w1 ++ WCall t :: w2))). { intros hi. apply (h2 t hi). rewrite hul. auto. }
    assert (hact : forall u, In u (act (w1 ++ WRun t 0 :: w2)) <-> u = t \/ In u (act (w1 ++ WCall t :: w2))) by (intros u; rewrite !act_mid, !in_app_iff; cbn; intuition).
    split; proj; unfold ul; proj.
    + rewrite act_mid in *. cbn [act1] in *. apply NoDup_Add with (a := t) (l := act w1 ++ act w2); [apply Add_app|]. split; [exact h1|exact hnact].
    + intros u hu [hi hk]. rewrite hact in hu. destruct hu as [->|hu]; [auto|]. apply (h2 u hu). rewrite hul. auto.
    + intros u hu. rewrite hact in hu. apply h3. rewrite hul. destruct (Nat.eq_dec u t) as [->|]; [right; auto|]. intuition.
    + intros u f0 y hg. destruct (h4 u f0 y hg) as (a1 & a2 & a3 & a4). rewrite run1_mid in *. splits; auto; intros; [apply a3|apply a4]; auto; intuition discriminate.
    + intros hd u hg. rewrite hact. destruct (h5 (fun hi => hd (in_or_app _ _ _ (or_introl hi))) u hg) as [?|[?|[hi hk]]]; auto. rewrite hul in hi. destruct hi; auto.
  - (* run *)
    destruct hf as [h1 h2 h3 h4 h5]. proj. unfold ul in *. proj. assert (hin : In (WRun t j) (w1 ++ WRun t j :: w2)) by (rewrite in_mid; auto). 
    assert (hlive : forall pc, taken pc = [] -> live l c (w1 ++ pc :: w2) = live l c (w1 ++ WRun t j :: w2)) by (intros pc hp; unfold live; rewrite !takens_mid, hp; reflexivity).
    destruct j as [|[|j]]; cbn [nth_error future_eval] in H; [| |destruct j; discriminate]; injection H as <-.
    + assert (hone : forall u, In (WRun u 1) (w1 ++ w2) -> u <> t).
      { intros u hu ->. rewrite act_mid in h1. cbn [act1 app] in h1. apply NoDup_remove_2 in h1. apply h1. unfold act. rewrite <- flat_map_app. apply (act_in _ _ 1); auto. }
      assert (hact : act (w1 ++ WRun t 1 :: w2) = act (w1 ++ WRun t 0 :: w2)) by (rewrite !act_mid; reflexivity).
      split; proj; unfold ul; proj; rewrite ?hact, ?(hlive (WRun t 1) eq_refl).
      * exact h1.
      * exact h2.
      * intros u hu. unfold store. destruct (Nat.eqb_spec u t) as [->|]; [cbn|]; apply h3; exact hu.
      * intros u f0 y hg. destruct (h4 u f0 y hg) as (a1 & a2 & a3 & a4). rewrite run1_mid in *. unfold store. destruct (Nat.eqb_spec u t) as [->|hne]; cbn [fn data finished].
        -- destruct (h3 t (or_introl (act_in _ _ 0 hin ltac:(lia)))) as [hb _]. assert (hno : ~ (WRun t 0 = WRun t 1 \/ In (WRun t 1) (w1 ++ w2))) by (intros [?|hi]; [discriminate|apply (hone t hi eq_refl)]).
           rewrite a1, (a4 hb hno). splits; auto; intros; try congruence; exfalso; match goal with h : ~ (_ \/ _) |- _ => apply h; auto end.
        -- splits; auto; intros; [apply a3|apply a4]; auto; intuition congruence.
      * intros hd u hg. unfold store. destruct (Nat.eqb_spec u t) as [->|]; [cbn|]; apply (h5 hd); exact hg.
    + assert (hnd : ~ In t (act w1 ++ act w2)) by (rewrite act_mid in h1; cbn [act1 app] in h1; apply NoDup_remove_2 in h1; exact h1).
      assert (hact : forall u, In u (act (w1 ++ WRun t 2 :: w2)) <-> u <> t /\ In u (act (w1 ++ WRun t 1 :: w2))).
      { intros u. rewrite !act_mid, !in_app_iff. cbn [act1 In]. split; [|intuition]. intros hu. split; [intros ->; apply hnd; rewrite in_app_iff; tauto|tauto]. }
      split; proj; unfold ul; proj; rewrite ?(hlive (WRun t 2) eq_refl).
      * rewrite act_mid in *. cbn [act1 app] in *. apply NoDup_remove_1 in h1. exact h1.
      * intros u hu. rewrite hact in hu. apply h2. tauto.
      * intros u hu. rewrite hact in hu. assert (hne : u <> t). { intros ->. destruct hu as [hu|hu]; [tauto|]. apply (h2 t); [apply (act_in _ _ 1 hin); lia|exact hu]. }
        unfold store. destruct (Nat.eqb_spec u t); [congruence|]. apply h3. tauto.
      * intros u f0 y hg. destruct (h4 u f0 y hg) as (a1 & a2 & a3 & a4). rewrite run1_mid in *. unfold store. destruct (Nat.eqb_spec u t) as [->|hne]; cbn [fn data finished].
        -- splits; auto. discriminate.
        -- splits; auto; intros; [apply a3|apply a4]; auto; intuition congruence.
      * intros hd u hg. rewrite hact. unfold store. destruct (Nat.eqb_spec u t) as [->|hne]; [cbn; auto|]. destruct (h5 hd u hg) as [?|[?|?]]; auto.
  - (* done *) assert (hj : exists i, j = S (S i)) by (destruct j as [|[|j]]; [discriminate|discriminate|eauto]). destruct hj as [i ->].
    apply (fut_same _ _ _ _ _ hf); proj; [reflexivity|rewrite !act_mid; reflexivity|intros u; rewrite !run1_mid; intuition discriminate| |rewrite in_app_iff; auto].
    intros u. unfold ul, live. proj. rewrite !takens_mid. reflexivity.
  - (* enq *) assert (hl : l' = l ++ [t]).
    { pose proof (s_live _ _ _ hs) as a2. pose proof (s_zero _ _ _ hs) as a3. pose proof (b_bound _ _ _ _ _ hac) as b3. proj. unfold live in a2, a3. rewrite pend_mid in a2, a3, b3. unfold pend1 in a2, a3, b3. cbn [fst snd app] in a2, a3, b3.
      assert (ht0 : t <> 0) by (intros ->; apply a3; rewrite !in_app_iff; cbn; auto).
      assert (htl : ~ In t l). { intros hi. apply in_split in hi as (x1 & x2 & ->). rewrite <- app_assoc in a2. cbn [app] in a2. apply NoDup_remove_2 in a2. apply a2. rewrite !in_app_iff. cbn. auto 8. }
      rewrite !app_length in b3. cbn [length] in b3. destruct (enq_holds _ _ _ t hq ht0 htl) as (q2 & h2' & e2 & hh & _); [lia|]. rewrite e2 in H0. injection H0 as -> ->. exact (holds_unique _ _ _ _ hq' hh). }
    subst l'. apply (fut_same _ _ _ _ _ hf); proj; [reflexivity|reflexivity|reflexivity| |rewrite in_app_iff; auto].
    intros u. unfold ul, live. proj. rewrite !pend_mid, !in_app_iff. unfold pend1. cbn. intuition.
  - (* unlock *) apply (fut_same _ _ _ _ _ hf); proj; [reflexivity|reflexivity|reflexivity|intros u|auto]. unfold ul, live. proj. rewrite pend_mid. unfold pend. rewrite flat_map_app. reflexivity.
  - (* return *) apply (fut_same _ _ _ _ _ hf); proj; [reflexivity|reflexivity|reflexivity|intros u|auto]. unfold ul, live. proj. rewrite pend_mid. unfold pend. rewrite flat_map_app. reflexivity.
  - (* discard *) pose proof (holds_unique _ _ _ _ (holds_init h) hq') as <-. destruct hf as [h1 h2 h3 h4 h5]. proj. unfold ul, live in *. proj. split; proj; unfold ul, live; proj.
    + exact h1.
    + intros u hu [hi hk]. apply (h2 u hu). cbn [app] in hi. rewrite in_app_iff. auto.
    + intros u hu. apply h3. cbn [app] in hu. rewrite in_app_iff. tauto.
    + exact h4.
    + intros hd. exfalso. apply hd. rewrite in_app_iff. cbn. auto.
  - (* malloc *) destruct (in_use_false _ _ _ _ hs H1) as [hu1 hu2]. apply (fut_same _ _ _ _ _ hf); proj; [reflexivity|reflexivity|reflexivity| |auto].
    intros u. unfold ul. proj. assert (hlive : In u (live l (c ++ [(t, CLock)]) w) <-> u = t \/ In u (live l c w)) by (unfold live; rewrite pend_new, !in_app_iff; cbn; intuition).
    rewrite hlive. destruct (Nat.eqb_spec u t) as [->|]; intuition congruence.
Qed.


Lemma given_snoc t es : forall a e, given D t (es ++ [e]) a = match e with Enqueue u x => if u =? t then Some x else given D t es a | _ => given D t es a end.
Proof. induction es as [|e0 es IH]; intros a e; [destruct e; reflexivity|]. destruct e0; cbn [app given]; apply IH. Qed.
Lemma exec_snoc e es : forall s, fexec D (es ++ [e]) s = match fexec D es s with Next s' => fstep D e s' | o => o end.
Proof.
  intros s. unfold fexec. rewrite exec_app. destruct (exec _ _ _ _ es s) as [| |s']; try reflexivity. cbn [exec]. unfold fstep. destruct (step _ _ _ _ e s'); reflexivity.
Qed.
(** the futures that have been used *)
Fixpoint used (es : list (fevent D)) : list nat := match es with [] => [] | Enqueue t _ :: es => t :: used es | _ :: es => used es end.
Lemma given_used t es : forall a, given D t es a <> None -> a <> None \/ In t (used es).
Proof.
  induction es as [|e es IH]; intros a h; [auto|]. destruct e; cbn [given used] in *; try (apply IH; exact h). destruct (IH _ h) as [h1|h1]; [|right; right; exact h1]. destruct (Nat.eqb_spec t0 t) as [->|]; [right; left; reflexivity|auto].
Qed.
Lemma proper_app es1 : forall es2 s u s', fexec D es1 s = Next M s' -> proper D (es1 ++ es2) u s -> exists u', proper D es2 u' s' /\ (forall t, In t (used es1) \/ In t u -> In t u').
Proof.
  induction es1 as [|e es1 IH]; intros es2 s u s' h hp; cbn [app] in *; [unfold fexec in h; cbn [exec] in h; injection h as <-; exists u; split; [exact hp|intros t [[]|]; auto]|].
  unfold fexec in h. cbn [exec] in h. cbn [proper] in hp. unfold fstep in hp. destruct (step M X (future_new D) (future_eval D) e s) as [| |s1] eqn:e1; try discriminate.
  destruct e; cbn [used]; try (destruct (IH es2 s1 _ s' h hp) as (u' & hp' & hu); exists u'; split; [exact hp'|exact hu]).
  destruct hp as [_ hp]. destruct (IH es2 s1 _ s' h hp) as (u' & hp' & hu). exists u'. split; [exact hp'|]. intros t1. specialize (hu t1). cbn [In] in *. tauto.
Qed.
Lemma fut_ext g g' l s : (forall u, g u = g' u) -> fut g l s -> fut g' l s.
Proof. intros e [h1 h2 h3 h4 h5]. split; auto; intros u; [intros hu; rewrite <- e; auto|intros f x; rewrite <- e; apply h4|]. intros u0. rewrite <- e. auto. Qed.
Lemma fut_exec n h f m es : forall s, (Z.of_nat n < two32)%Z -> fexec D es (init M n h f m) = Next M s -> proper D es [] (init M n h f m) ->
  exists l b, structure l s /\ account M n b l s /\ fut (fun t => given D t es None) l s.
Proof.
  induction es as [|e es IH] using rev_ind; intros s hn he hp.
  - unfold fexec in he. cbn in he. injection he as <-. destruct (good_init M X (future_new D) n h f m hn) as (l & b & h1 & h2 & _ & _). exists l, b. splits; auto. pose proof (holds_unique _ _ _ _ (s_queue _ _ _ h1) (holds_init h)) as ->. exact (fut_init n h f m).
  - rewrite exec_snoc in he. destruct (fexec D es (init M n h f m)) as [| |s1] eqn:e1; try discriminate.
    assert (hp1 : proper D es [] (init M n h f m)).
    { clear -hp. revert hp. generalize (@nil nat) as u. generalize (init M n h f m) as s. induction es as [|e0 es IH]; intros s u hp; [exact I|]. cbn [app proper] in *. destruct (fstep D e0 s) as [| |s']; auto. destruct e0; try (apply (IH s' _ hp)). destruct hp as [hp1 hp2]. split; [exact hp1|]. apply (IH s' _ hp2). }
    destruct (IH s1 hn eq_refl hp1) as (l & b & h1 & h2 & h3). assert (hg : good_state n s) by (apply (exec_good M X (future_new D) (future_eval D) n h f m (es ++ [e]) s hn); fold (fexec D (es ++ [e]) (init M n h f m)); rewrite exec_snoc, e1; exact he).
    destruct hg as (l' & b' & h1' & h2' & _ & _). exists l', b'. splits; auto. destruct (proper_app es [e] _ _ s1 e1 hp) as (u & hpe & hu).
    assert (hfin : forall t x, e = Enqueue X t x -> given D t es None <> None -> is_finished D s1 t = true).
    { intros t x -> hgv. cbn [proper] in hpe. rewrite he in hpe. destruct hpe as [hpe _]. apply hpe. apply hu. left. destruct (given_used _ _ _ hgv) as [?|?]; [congruence|assumption]. }
    apply (fut_ext (match e with Enqueue t x => fun u => if t =? u then Some x else given D u es None | _ => fun t => given D t es None end)).
    + intros v. rewrite given_snoc. destruct e; reflexivity.
    + exact (fut_step n b _ l l' e s1 s (step_trans _ _ _ _ _ _ _ he) h1 h1' h2 hfin h3).
Qed.
Lemma given_keep t es2 : no_new D t es2 -> forall a, given D t es2 a = a.
Proof.
  induction es2 as [|e es2 IH]; intros h a; [reflexivity|]. assert (h' : no_new D t es2) by (intros x hi; apply (h x); right; exact hi). destruct e; cbn [given]; try apply (IH h'). destruct (Nat.eqb_spec t0 t) as [->|]; [|apply (IH h')]. exfalso. apply (h x). left. reflexivity.
Qed.
Lemma given_app t es1 es2 a : given D t (es1 ++ es2) a = given D t es2 (given D t es1 a).
Proof. revert a. induction es1 as [|e es1 IH]; intros a; [reflexivity|]. destruct e; cbn [app given]; apply IH. Qed.
(** finished stays until the future is used again *)
Lemma finished_stays n h f m es1 s1 es2 s2 t : (Z.of_nat n < two32)%Z -> fexec D es1 (init M n h f m) = Next M s1 -> fexec D es2 s1 = Next M s2 -> proper D (es1 ++ es2) [] (init M n h f m) -> no_new D t es2 ->
  given D t es1 None <> None -> is_finished D s1 t = true -> is_finished D s2 t = true.
Proof.
  intros hn h1. revert s2. induction es2 as [|e es2 IH] using rev_ind; intros s2 h2 hp hw hg hfin; [unfold fexec in h2; cbn in h2; injection h2 as <-; exact hfin|].
  rewrite exec_snoc in h2. destruct (fexec D es2 s1) as [| |s3] eqn:e3; try discriminate. assert (hx : fexec D (es1 ++ es2) (init M n h f m) = Next M s3) by (unfold fexec in *; rewrite exec_app, h1; exact e3).
  assert (hp3 : proper D (es1 ++ es2) [] (init M n h f m)).
  { rewrite app_assoc in hp. clear -hp. revert hp. generalize (es1 ++ es2) as es. generalize (@nil nat) as u. generalize (init M n h f m) as s. intros s u es. revert s u. induction es as [|e0 es IH]; intros s u hp; [exact I|]. cbn [app proper] in *. destruct (fstep D e0 s) as [| |s']; auto. destruct e0; try (apply (IH s' _ hp)). destruct hp as [hp1 hp2]. split; [exact hp1|]. apply (IH s' _ hp2). }
  assert (hw3 : no_new D t es2) by (intros x hi; apply (hw x); apply in_or_app; auto). specialize (IH s3 eq_refl hp3 hw3 hg hfin).
  pose proof (step_trans _ _ _ _ _ _ _ h2) as htr. clear h2. unfold is_finished in *. destruct htr; proj; auto.
  - unfold future_new, store. destruct (Nat.eqb_spec t t0) as [->|]; [|exact IH]. exfalso. apply (hw x). apply in_or_app. right. left. reflexivity.
  - destruct j as [|[|j]]; cbn [nth_error future_eval] in H; [| |destruct j; discriminate]; injection H as <-; unfold store; destruct (t =? t0) eqn:et; auto. apply Nat.eqb_eq in et. subst t0. exact IH.
Qed.

(** ** results *)
Lemma future_result n h f m es1 es2 es3 t g x s2 s3 : (Z.of_nat n < two32)%Z -> proper D (es1 ++ Enqueue X t (g, x) :: es2 ++ es3) [] (init M n h f m) -> no_new D t es2 -> no_new D t es3 ->
  fexec D (es1 ++ Enqueue X t (g, x) :: es2) (init M n h f m) = Next M s2 -> is_finished D s2 t = true -> fexec D es3 s2 = Next M s3 -> is_finished D s3 t = true /\ result D s3 t = g x.
Proof.
  intros hn hp hw2 hw3 h2 hfin h3. replace (es1 ++ Enqueue X t (g, x) :: es2 ++ es3) with ((es1 ++ Enqueue X t (g, x) :: es2) ++ es3) in hp by (rewrite <- app_assoc; reflexivity).
  assert (hg : given D t (es1 ++ Enqueue X t (g, x) :: es2) None = Some (g, x)) by (rewrite given_app; cbn [given]; rewrite Nat.eqb_refl; apply given_keep; exact hw2).
  assert (hx : fexec D ((es1 ++ Enqueue X t (g, x) :: es2) ++ es3) (init M n h f m) = Next M s3) by (unfold fexec in *; rewrite exec_app, h2; exact h3).
  assert (hf3 : is_finished D s3 t = true) by (apply (finished_stays n h f m _ s2 es3 s3 t hn h2 h3 hp hw3); [rewrite hg; discriminate|exact hfin]). split; [exact hf3|].
  destruct (fut_exec n h f m _ s3 hn hx hp) as (l & b & _ & _ & [_ _ _ hv _]). destruct (hv t g x) as (_ & hv2 & _); [rewrite given_app, given_keep by exact hw3; exact hg|]. apply hv2. exact hf3.
Qed.
Lemma future_done n h f m es s t : (Z.of_nat n < two32)%Z -> fexec D es (init M n h f m) = Next M s -> proper D es [] (init M n h f m) -> (forall e, outside e = false -> fstep D e s = Blocked M) ->
  0 < n -> fin M s = FIdle -> ~ In ODiscarded (trace M s) -> given D t es None <> None -> is_finished D s t = true.
Proof.
  intros hn he hp hb hn0 hf hd hg. destruct (fut_exec n h f m es s hn he hp) as (l & b & h1 & h2 & [_ _ _ _ h5]). destruct (pool_progress M X (future_new D) (future_eval D) n h f m es s hn he hb) as (p1 & p2 & p3 & _).
  assert (hq : queued M s = []).
  { destruct p3 as [p3|p3]; [exact p3|]. exfalso. pose proof (b_fin _ _ _ _ _ h2) as hfin. rewrite hf in hfin. destruct hfin as (-> & _). pose proof (b_marks _ _ _ _ _ h2) as hm. pose proof (b_len _ _ _ _ _ h2) as hw. destruct (workers M s) as [|pc w] eqn:ew; [cbn in hw; lia|].
    rewrite (p3 pc (or_introl eq_refl)) in hm. cbn in hm. lia. }
  assert (hl : l = []) by (rewrite <- hq; symmetry; apply (queued_list M l s h1)). subst l.
  assert (hz : act (workers M s) = [] /\ takens (workers M s) = []).
  { clear -p2. induction (workers M s) as [|pc w IH]; [auto|]. destruct IH as [i1 i2]; [intros; apply p2; right; assumption|]. unfold act, takens in *. cbn [flat_map]. rewrite i1, i2. destruct (p2 pc (or_introl eq_refl)) as [->| ->]; auto. }
  destruct hz as [z1 z2]. destruct (h5 hd t hg) as [k|[k|[k _]]]; [exact k|rewrite z1 in k; destruct k|]. unfold live in k. rewrite p1, z2 in k. destruct k.
Qed.
End Futures.
