(** Consequences of the invariants of the thread pool. *)
From Verif Require Import Base QueueModel QueueSpec QueueProofs PoolModel PoolSpec PoolTrans PoolProofs Pool2Proofs Pool3Proofs.
From Coq Require Import Permutation.

Lemma replay_fifo tr : forall l r, ~ In ODiscarded tr -> replay tr l = Some r -> l ++ enqueued tr = dequeued tr ++ r.
Proof.
  induction tr as [|o tr IH]; intros l r hd h; cbn [replay] in h; [injection h as ->; cbn; rewrite app_nil_r; reflexivity|]. assert (hd' : ~ In ODiscarded tr) by (intros hi; apply hd; right; exact hi).
  destruct o; try exact (IH _ _ hd' h).
  - change (enqueued (OEnqueued t finish :: tr)) with ((t, finish) :: enqueued tr). change (dequeued (OEnqueued t finish :: tr)) with (dequeued tr). rewrite <- (IH _ _ hd' h). rewrite <- app_assoc. reflexivity.
  - destruct l as [|[u c] l]; [discriminate|]. destruct (Nat.eqb_spec t u) as [->|]; [|discriminate]. destruct (Bool.eqb finish c) eqn:ec; [|discriminate]. apply Bool.eqb_prop in ec. subst c.
    change (dequeued (ODequeued u finish :: tr)) with ((u, finish) :: dequeued tr). cbn [app]. f_equal. exact (IH _ _ hd' h).
  - exfalso. apply hd. left. reflexivity.
Qed.
Lemma entries_user k l : marks k l = 0 -> user_tasks (entries k l) = l /\ finish_tasks (entries k l) = [].
Proof.
  unfold marks, user_tasks, finish_tasks, entries. induction l as [|t l IH]; [auto|]. cbn [filter map snd]. destruct (k t); [discriminate|]. intros h. destruct (IH h) as [e1 e2]. cbn [negb map fst]. rewrite e1, e2. auto.
Qed.
Lemma finish_tasks_entries k l : length (finish_tasks (entries k l)) = marks k l.
Proof. unfold marks, finish_tasks, entries. rewrite map_length. induction l as [|t l IH]; [reflexivity|]. cbn [map filter snd]. destruct (k t); cbn [length]; rewrite IH; reflexivity. Qed.

Lemma in_split_first {A : Type} (dec : forall a b : A, {a = b} + {a <> b}) (x : A) (l : list A) : In x l -> exists a b, l = a ++ x :: b /\ ~ In x a.
Proof.
  induction l as [|y l IH]; [intros []|]. intros h. destruct (dec y x) as [->|ne]; [exists [], l; auto|]. destruct h as [h|h]; [contradiction|]. destruct (IH h) as (a & b & -> & hn).
  exists (y :: a), b. split; [reflexivity|]. intros [?|?]; auto.
Qed.

Section Pool.
Variables M X : Type.
Variable prepare : nat -> X -> M -> M.
Variable code : list (nat -> M -> M).
Notation pool := (pool M).
Notation mkp := (mkpool M).
Notation trans := (trans M X prepare code).
Notation step := (step M X prepare code).
Notation exec := (exec M X prepare code).
Notation structure := (structure M).
Notation account := (account M).
Notation good_state := (good_state M).
Ltac proj := cbn [PoolModel.q next calls workers owner fin trace is_finish size destroyed no_wait] in *.

Lemma exec_good n h f m es s : (Z.of_nat n < two32)%Z -> exec es (init M n h f m) = Next M s -> good_state n s.
Proof. intros hn e. apply (good_exec M X prepare code n es _ _ e). apply (good_init M X prepare). exact hn. Qed.

(** ** order and number of executions *)
Lemma pool_fifo n h f m es s : (Z.of_nat n < two32)%Z -> exec es (init M n h f m) = Next M s ->
  replay (trace M s) [] = Some (map (fun t => (t, is_finish M s t)) (queued M s)) /\
  (~ In ODiscarded (trace M s) -> enqueued (trace M s) = dequeued (trace M s) ++ map (fun t => (t, is_finish M s t)) (queued M s)).
Proof.
  intros hn e. destruct (exec_good n h f m es s hn e) as (l & b & h1 & h2 & h3 & h4). assert (el : queued M s = l) by (apply nodes_holds; apply (s_queue _ _ _ h1)). rewrite el.
  pose proof (s_replay _ _ _ h1) as hr. split; [exact hr|]. intros hd. exact (replay_fifo _ _ _ hd hr).
Qed.
Lemma pool_once n h f m es s : (Z.of_nat n < two32)%Z -> exec es (init M n h f m) = Next M s ->
  (forall pc, In pc (workers M s) -> pc = WLock \/ pc = WCheck \/ pc = WWait \/ pc = WWake \/ pc = WExited) ->
  Permutation (completed (trace M s)) (user_tasks (dequeued (trace M s))).
Proof.
  intros hn e. destruct (exec_good n h f m es s hn e) as (l & b & h1 & h2 & [c1 c2 c3 c4 c5 c6 c7] & h4). intros hw.
  assert (e1 : takens (workers M s) = [] /\ running (workers M s) = []).
  { clear -hw. induction (workers M s) as [|pc w IH]; [auto|]. destruct IH as [i1 i2]; [intros p hp; apply hw; right; exact hp|]. unfold takens, running in *. cbn [flat_map]. rewrite i1, i2. destruct (hw pc (or_introl eq_refl)) as [->|[->|[->|[->| ->]]]]; auto. }
  destruct e1 as [e1 e2]. unfold users in c1. rewrite e1 in c1. cbn in c1. rewrite app_nil_r in c1. rewrite e2, app_nil_r in c4. rewrite c1, c4. reflexivity.
Qed.
Lemma pool_at_most_once n h f m es s : (Z.of_nat n < two32)%Z -> exec es (init M n h f m) = Next M s ->
  exists wait run, Permutation (user_tasks (dequeued (trace M s))) (started (trace M s) ++ wait) /\ Permutation (started (trace M s)) (completed (trace M s) ++ run) /\
    length (wait ++ run) + length (exits (trace M s)) <= n.
Proof.
  intros hn e. destruct (exec_good n h f m es s hn e) as (l & b & h1 & h2 & [c1 c2 c3 c4 c5 c6 c7] & h4). exists (users (is_finish M s) (workers M s)), (running (workers M s)). splits; auto.
  rewrite c3, app_length. rewrite <- (b_len _ _ _ _ _ h2). clear. unfold users, takens, running, exited. generalize (fun t => negb (is_finish M s t)). intros k.
  induction (workers M s) as [|pc w IH]; [reflexivity|]. cbn [flat_map filter length]. rewrite filter_app, !app_length. destruct pc; cbn [taken running1 filter is_exited length] in *; try (destruct (k t); cbn [length]); lia.
Qed.

(** ** finish *)
Lemma all_exited_none w : all_exited w -> takens w = [] /\ running w = [].
Proof.
  intros h. assert (hf : forall pc, In pc w -> pc = WExited) by (intros pc; apply all_exited_in; exact h). clear h. induction w as [|pc w IH]; [auto|].
  destruct IH as [i1 i2]; [intros p hp; apply hf; right; exact hp|]. unfold takens, running in *. cbn [flat_map]. rewrite i1, i2, (hf pc) by (left; reflexivity). auto.
Qed.
(** the tasks made by calls of finish *)
Definition made (n : nat) (s : pool) : Prop :=
  length (finish_tasks (enqueued (trace M s))) + marks (is_finish M s) (pend (calls M s)) + planned n (fin M s) <= n * finish_calls (trace M s).
Lemma finish_calls_snoc tr o : finish_calls (tr ++ [o]) = finish_calls tr + finish_calls [o].
Proof. unfold finish_calls. rewrite flat_map_app, app_length. reflexivity. Qed.
Lemma made_step e s s' l n b : trans e s s' -> structure l s -> account n b l s -> made n s -> made n s'.
Proof.
  intros ht hs ha hm. pose proof (b_fin _ _ _ _ _ ha) as hf. destruct ht; unfold made in *; proj; rewrite ?enqueued_snoc, ?finish_calls_snoc, ?finish_tasks_app, ?app_length, ?pend_mid, ?marks_app in *; cbn [pend1 fst snd finish_calls flat_map length enqueued app planned] in *;
    change (length (finish_tasks [])) with 0; try lia.
  - destruct (in_use_false _ _ _ _ hs H0) as [hl _]. proj. unfold live in hl. rewrite !in_app_iff in hl. change (pend1 (t, CLock)) with [t]. change (pend []) with (@nil nat). rewrite marks_1, Nat.eqb_refl. change (marks _ []) with 0.
    rewrite (marks_ext k) by (intros u hu; destruct (Nat.eqb_spec u t); [subst; tauto|reflexivity]). lia.
  - assert (hz : z <= n). { destruct H as [->|[r ->]]; cbn [fin_ok] in hf; [lia|]. apply (pool_base_size n z d w). tauto. } assert (h0 : planned n f = 0) by (destruct H as [->|[r ->]]; reflexivity). rewrite h0 in hm.
    assert (planned n (if dc then FDiscardLock else FMalloc 0 z) <= n) by (destruct dc; cbn [planned]; lia). lia.
  - unfold finish_tasks at 2. cbn [filter snd]. rewrite marks_1 in hm. destruct (k t); cbn [map length] in *; change (marks k []) with 0 in *; lia.
  - unfold pend in *. rewrite flat_map_app, marks_app. change (marks k []) with 0 in *. lia.
  - unfold pend in *. rewrite flat_map_app, marks_app. change (marks k []) with 0 in *. lia.
  - cbn [fin_ok] in hf. apply pool_base_size in hf. lia.
  - destruct (in_use_false _ _ _ _ hs H1) as [hl _]. proj. unfold live in hl. rewrite !in_app_iff in hl. change (pend1 (t, CLock)) with [t]. change (pend []) with (@nil nat). rewrite marks_1, Nat.eqb_refl. change (marks _ []) with 0.
    rewrite (marks_ext k) by (intros u hu; destruct (Nat.eqb_spec u t); [subst; tauto|reflexivity]). lia.
Qed.
Lemma made_exec n es : forall s s', exec es s = Next M s' -> good_state n s -> made n s -> made n s'.
Proof.
  induction es as [|e es IH]; intros s s' h hg hm; cbn [PoolModel.exec] in h; [injection h as <-; exact hm|]. destruct (step e s) as [| |s1] eqn:e1; try discriminate.
  apply (IH s1 s' h (good_step M X prepare code n e s s1 e1 hg)). destruct hg as (l & b & h1 & h2 & _). apply (made_step e s s1 l n b (step_trans _ _ _ _ _ _ _ e1) h1 h2 hm).
Qed.
Lemma pool_made n h f m es s : (Z.of_nat n < two32)%Z -> exec es (init M n h f m) = Next M s -> made n s.
Proof. intros hn e. apply (made_exec n es _ _ e); [apply (good_init M X prepare); exact hn|]. unfold made, init. proj. cbn. lia. Qed.
Lemma marks_filter k l : marks k l = length (filter k l). Proof. reflexivity. Qed.
Lemma pool_ended n h f m es s : (Z.of_nat n < two32)%Z -> exec es (init M n h f m) = Next M s -> In OFinish (trace M s) -> all_exited (workers M s) ->
  Permutation (completed (trace M s)) (user_tasks (dequeued (trace M s))) /\
  (0 < n -> ~ In ODiscarded (trace M s) ->
    (exists before after, trace M s = before ++ OFinish :: after /\ ~ In OFinish before /\
      (exists later, dequeued (trace M s) = enqueued before ++ later) /\
      (user_tasks (enqueued after) = [] -> forall t, In t (queued M s) -> is_finish M s t = true)) /\
    length (finish_tasks (enqueued (trace M s))) = n + length (filter (is_finish M s) (queued M s)) /\
    length (filter (is_finish M s) (queued M s)) <= n * (finish_calls (trace M s) - 1)).
Proof.
  intros hn e hc hall. destruct (exec_good n h f m es s hn e) as (l & b & h1 & h2 & [c1 c2 c3 c4 c5 c6 c7] & h4). pose proof (pool_made n h f m es s hn e) as hmade. unfold made in hmade.
  destruct (all_exited_none _ hall) as [e1 e2]. split.
  { unfold users in c1. rewrite e1 in c1. cbn in c1. rewrite app_nil_r in c1. rewrite e2, app_nil_r in c4. rewrite c1, c4. reflexivity. }
  intros hn0 hd. pose proof (replay_fifo _ _ _ hd (s_replay _ _ _ h1)) as hr. cbn [app] in hr. rewrite (nodes_holds _ _ _ (s_queue _ _ _ h1) : queued M s = l).
  unfold takes in c2. rewrite e1 in c2. cbn in c2. rewrite app_nil_r in c2. apply all_exited_count in hall. rewrite (b_len _ _ _ _ _ h2) in hall.
  assert (hcount : length (finish_tasks (enqueued (trace M s))) = n + length (filter (is_finish M s) l)).
  { rewrite hr, finish_tasks_app, app_length, finish_tasks_entries. rewrite (Permutation_length c2), c3, hall. reflexivity. }
  split; [|split; [exact hcount|]].
  - destruct (in_split_first obs_eq_dec _ _ hc) as (before & after & et & hni). exists before, after. split; [exact et|]. split; [exact hni|]. specialize (c5 before after et hni).
    assert (he : enqueued (trace M s) = enqueued before ++ enqueued after) by (rewrite et; unfold enqueued; rewrite flat_map_app; reflexivity).
    assert (hx : finish_tasks (dequeued (trace M s)) <> []). { intros hx. rewrite hx in c2. apply Permutation_nil in c2. rewrite c2 in c3. cbn in c3. lia. }
    assert (hpre : exists later, dequeued (trace M s) = enqueued before ++ later).
    { rewrite he in hr. apply app_eq_app in hr as (k & [ [hk1 hk2] | [hk1 hk2] ]); [|eauto]. exfalso. apply hx. rewrite hk1, finish_tasks_app in c5. apply app_eq_nil in c5. apply c5. }
    split; [exact hpre|]. intros hu t ht. destruct hpre as [later hl]. rewrite he, hl, <- app_assoc in hr. apply app_inv_head in hr.
    rewrite hr, user_tasks_app in hu. apply app_eq_nil in hu as [_ hu]. destruct (is_finish M s t) eqn:ek; [reflexivity|]. exfalso.
    assert (hi : In t (user_tasks (entries (is_finish M s) l))). { unfold user_tasks, entries. apply in_map_iff. exists (t, false). split; [reflexivity|]. apply filter_In. split; [|reflexivity]. apply in_map_iff. exists t. rewrite ek. auto. }
    rewrite hu in hi. destruct hi.
  - rewrite hcount in hmade. assert (1 <= finish_calls (trace M s)). { apply in_split in hc as (u1 & u2 & ->). unfold finish_calls. rewrite flat_map_app, app_length. cbn [flat_map app length]. lia. }
    replace (finish_calls (trace M s)) with (S (finish_calls (trace M s) - 1)) in hmade by lia. nia.
Qed.
Lemma pool_finish n h f m es s : (Z.of_nat n < two32)%Z -> exec es (init M n h f m) = Next M s -> fin M s = FReturned 0 -> no_wait M s = false ->
  (forall pc, In pc (workers M s) -> pc = WExited) /\
  Permutation (completed (trace M s)) (user_tasks (dequeued (trace M s))) /\
  (0 < n -> ~ In ODiscarded (trace M s) -> exists before after, trace M s = before ++ OFinish :: after /\ ~ In OFinish before /\
    (exists later, dequeued (trace M s) = enqueued before ++ later) /\
    (user_tasks (enqueued after) = [] -> ~ In OFinish after -> queued M s = [])).
Proof.
  intros hn e hf hw. destruct (exec_good n h f m es s hn e) as (l & b & h1 & h2 & h3 & h4). pose proof (b_fin _ _ _ _ _ h2) as hb. rewrite hf in hb. destruct hb as (_ & hb). destruct (hb eq_refl) as [_ hall]. specialize (hall hw).
  assert (hc : In OFinish (trace M s)) by (apply (c_called _ _ h3); rewrite hf; discriminate). destruct (pool_ended n h f m es s hn e hc hall) as [g1 g2].
  split; [intros pc; apply all_exited_in; exact hall|]. split; [exact g1|]. intros hn0 hd. destruct (g2 hn0 hd) as ((before & after & et & hni & hpre & hu) & g3 & g4). exists before, after. splits; auto.
  intros hua hnf. assert (ef : finish_calls (trace M s) = 1).
  { assert (z : forall l, ~ In OFinish l -> flat_map (fun o => match o with OFinish => [tt] | _ => [] end) l = []).
    { induction l0 as [|o l0 IH]; [reflexivity|]. intros hn'. cbn [flat_map]. rewrite IH by (intros hi; apply hn'; right; exact hi). destruct o; try reflexivity. exfalso. apply hn'. left. reflexivity. }
    rewrite et. unfold finish_calls. rewrite flat_map_app, app_length. cbn [flat_map app length]. rewrite !z by assumption. reflexivity. }
  rewrite ef, Nat.sub_diag, Nat.mul_0_r in g4. destruct (queued M s) as [|t r]; [reflexivity|]. exfalso. specialize (hu hua t (or_introl eq_refl)). cbn [filter] in g4. rewrite hu in g4. cbn [length] in g4. lia.
Qed.

(** ** undefined behaviour *)
Lemma destroyed_exited n b l s : account n b l s -> destroyed M s = true -> all_exited (workers M s).
Proof. intros ha hd. destruct (fin_ok_wait _ _ _ _ _ _ _ _ (b_fin _ _ _ _ _ ha) hd) as [h|h]; [exact h|]. exfalso. apply h. apply (b_len _ _ _ _ _ ha). Qed.
Lemma pool_undefined n h f m es s e : (Z.of_nat n < two32)%Z -> exec es (init M n h f m) = Next M s -> step e s = Undefined M ->
  destroyed M s = true /\ ((exists t w, e = Call X t w) \/ ((exists v, e = Fin X v) /\ fin M s = FDiscardLock)) /\ forall pc, In pc (workers M s) -> pc = WExited.
Proof.
  intros hn he hu. destruct (exec_good n h f m es s hn he) as (l & b & h1 & h2 & _ & _).
  assert (goal : destroyed M s = true /\ ((exists t w, e = Call X t w) \/ ((exists v, e = Fin X v) /\ fin M s = FDiscardLock))).
  { destruct e as [t x|i|nw dc|t w|i|v]; cbn [PoolModel.step] in hu.
    - destruct (_ || _); discriminate.
    - destruct (nth_error _ _) as [[]|]; discriminate.
    - destruct (fin M s); try discriminate; destruct (Z.leb _ _); discriminate.
    - split; [|eauto]. unfold step_call, lock in hu. destruct (find_call t (calls M s)) as [[[c1 pc] c2]|] eqn:ec; [|discriminate]. apply find_call_some in ec as [ec hc]. destruct (destroyed M s) eqn:ed; [reflexivity|]. exfalso. destruct pc.
      + destruct (owner M s); discriminate.
      + pose proof (s_live _ _ _ h1) as a2. pose proof (s_zero _ _ _ h1) as a3. pose proof (b_bound _ _ _ _ _ h2) as b3. rewrite ec in a2, a3, b3. unfold live in a2, a3. rewrite pend_mid in a2, a3, b3. unfold pend1 in a2, a3, b3. cbn [fst snd app] in a2, a3, b3.
        assert (ht : t <> 0 /\ ~ In t l).
        { split; [intros ->; apply a3; rewrite !in_app_iff; cbn; auto|]. intros hi.
          assert (a2' : NoDup (t :: l ++ (pend c1 ++ pend c2) ++ takens (workers M s))) by (refine (Permutation_NoDup _ a2); rewrite <- !app_assoc; cbn [app]; rewrite !(app_assoc l); symmetry; apply Permutation_middle).
          apply NoDup_cons_iff in a2' as [a2' _]. apply a2'. rewrite in_app_iff. auto. }
        destruct (enq_holds _ _ _ t (s_queue _ _ _ h1) (proj1 ht) (proj2 ht)) as (q2 & h2' & e2 & _); [rewrite !app_length in b3; cbn [length] in b3; lia|]. rewrite e2 in hu. discriminate.
      + destruct w as [i|]; [destruct (nth_error (workers M s) i) as [[]|]; discriminate|]. destruct (existsb _ _); discriminate.
      + discriminate.
    - exfalso. unfold step_worker, lock in hu. destruct (nth_error (workers M s) i) as [pc|] eqn:ew; [|discriminate].
      assert (hnd : pc <> WExited -> destroyed M s = false). { intros hp. destruct (destroyed M s) eqn:ed; [|reflexivity]. exfalso. apply hp. apply (all_exited_in (workers M s)); [apply (destroyed_exited n b l); assumption|]. apply nth_error_In in ew. exact ew. }
      destruct pc; try discriminate; try (rewrite hnd in hu by discriminate).
      + destruct (owner M s); discriminate.
      + destruct (Z.eqb_spec (qsize (q M s)) 0); [discriminate|]. pose proof (s_queue _ _ _ h1) as hq. destruct l as [|a l]; [destruct hq as (_ & _ & _ & _ & _ & hq & _); cbn in hq; contradiction|].
        destruct (deq_holds _ _ _ _ hq) as (q' & ed & _). rewrite ed in hu. discriminate.
      + destruct (owner M s); discriminate.
      + destruct (is_finish M s t); discriminate.
      + destruct (nth_error code k); discriminate.
    - unfold step_finish, lock in hu. pose proof (b_fin _ _ _ _ _ h2) as hb. destruct (fin M s); cbn [fin_ok] in hb; try discriminate.
      + destruct (destroyed M s); [|destruct (owner M s); discriminate]. split; [reflexivity|]. right. eauto.
      + destruct (i <? n0); [|destruct (no_wait M s); discriminate]. destruct v as [t|]; [|discriminate]. destruct (_ || _); discriminate.
      + destruct (Nat.ltb_spec i n0); [|discriminate]. destruct (nth_error (workers M s) i) as [[]|]; try discriminate. destruct (_ =? 0); [|discriminate]. destruct (destroyed M s); [|discriminate]. destruct hb as (_ & _ & _ & [(-> & _ & hb & _)|[-> _]]); [specialize (hb eq_refl)|]; lia. }
  destruct goal as [g1 g2]. splits; auto. intros pc. apply all_exited_in. apply (destroyed_exited n b l s h2 g1).
Qed.

(** calls of enqueue that have ended before finish is called are no problem *)
Definition quiet (s : pool) : Prop := match fin M s with FCall _ _ t => map fst (calls M s) = [t] | _ => calls M s = [] end.
Lemma quiet_step e s s' : trans e s s' -> (forall t x, e <> Enqueue X t x) -> quiet s -> quiet s'.
Proof.
  intros ht he hq. assert (hkey : forall (c1 : list (nat * cpc)) t pc c2 f, match f with FCall _ _ u => map fst (c1 ++ (t, pc) :: c2) = [u] | _ => c1 ++ (t, pc) :: c2 = [] end -> c1 = [] /\ c2 = [] /\ exists i m, f = FCall i m t).
  { intros c1 t pc c2 f hf. destruct f; try (destruct c1; discriminate). destruct c1 as [|a c1]; [|destruct c1; discriminate]. cbn in hf. injection hf as -> hf. destruct c2; [|discriminate]. splits; eauto. }
  destruct ht; unfold quiet in *; proj; auto; try (destruct (hkey _ _ _ _ _ hq) as (-> & -> & i' & m' & ->); cbn [app map fst]; auto; fail).
  - exfalso. apply (he t x). reflexivity.
  - assert (hc : c = []) by (destruct H as [->|[r ->]]; exact hq). destruct dc; exact hc.
  - exfalso. destruct (hkey _ _ _ _ _ hq) as (-> & -> & i' & m' & ->). apply (H0 i' m'). reflexivity.
  - destruct (hkey c1 t CUnlock c2 (FCall i n t) hq) as (-> & -> & _). reflexivity.
  - rewrite hq. reflexivity.
Qed.
Lemma quiet_exec es : forall s s', exec es s = Next M s' -> Forall (fun e => forall t x, e <> Enqueue X t x) es -> quiet s -> quiet s'.
Proof.
  induction es as [|e es IH]; intros s s' h hf hq; cbn [PoolModel.exec] in h; [injection h as <-; exact hq|]. destruct (step e s) as [| |s1] eqn:e1; try discriminate.
  apply (IH s1 s' h (Forall_inv_tail hf)). apply (quiet_step e s s1 (step_trans _ _ _ _ _ _ _ e1) (Forall_inv hf) hq).
Qed.
Lemma exec_app es1 : forall es2 s, exec (es1 ++ es2) s = match exec es1 s with Next s' => exec es2 s' | o => o end.
Proof. induction es1 as [|e es1 IH]; intros es2 s; [reflexivity|]. cbn [app PoolModel.exec]. destruct (step e s); auto. Qed.
Lemma phase_step e s s' : trans e s s' ->
  (fin M s' = FIdle -> fin M s = FIdle /\ is_finish_call e = false) /\ (fin M s' <> FIdle -> fin M s = FIdle -> is_finish_call e = true) /\
  (fin M s' = FDiscardLock -> destroyed M s' = destroyed M s /\ (fin M s = FDiscardLock \/ exists nw, e = Finish X nw true)).
Proof.
  intros ht. destruct ht; proj; cbn [is_finish_call]; splits; auto; try (intros; congruence).
  - destruct dc; discriminate.
  - destruct dc; [eauto|discriminate].
Qed.
Lemma safe_exec n es : forall s s', exec es s = Next M s' -> good_state n s -> Forall (fun e => forall t x, e <> Enqueue X t x) es ->
  (fin M s = FIdle -> forall a nw b, es = a ++ Finish X nw true :: b -> count is_finish_call a = 0) -> (fin M s <> FIdle -> forall nw, ~ In (Finish X nw true) es) ->
  (fin M s = FDiscardLock -> destroyed M s = false) -> fin M s' = FDiscardLock -> destroyed M s' = false.
Proof.
  induction es as [|e es IH]; intros s s' h hg he h1 h2 h3; cbn [PoolModel.exec] in h; [injection h as <-; exact h3|]. destruct (step e s) as [| |s1] eqn:e1; try discriminate.
  pose proof (good_step M X prepare code n e s s1 e1 hg) as hg1. destruct (phase_step e s s1 (step_trans _ _ _ _ _ _ _ e1)) as (p1 & p2 & p3).
  apply (IH s1 s' h hg1 (Forall_inv_tail he)).
  - intros hf a nw b ea. destruct (p1 hf) as [hf0 hc]. specialize (h1 hf0 (e :: a) nw b). rewrite ea in h1. specialize (h1 eq_refl). unfold count in *. cbn [filter] in h1. rewrite hc in h1. exact h1.
  - intros hf nw hi. destruct (fin M s) eqn:ef; try (apply (h2 ltac:(discriminate) nw); right; exact hi).
    specialize (p2 hf eq_refl). apply in_split in hi as (a & b & ->). specialize (h1 eq_refl (e :: a) nw b eq_refl). unfold count in h1. cbn [filter] in h1. rewrite p2 in h1. discriminate.
  - intros hf. destruct (p3 hf) as [-> [hd|[nw ->]]]; [exact (h3 hd)|]. destruct (fin M s) eqn:ef; try (exfalso; apply (h2 ltac:(discriminate) nw); left; reflexivity).
    destruct hg as (l & b & _ & g2 & _). pose proof (b_fin _ _ _ _ _ g2) as hb. rewrite ef in hb. apply hb.
Qed.
Lemma pool_defined n h f m es1 s1 es2 s2 e : (Z.of_nat n < two32)%Z -> exec es1 (init M n h f m) = Next M s1 -> fin M s1 = FIdle -> calls M s1 = [] ->
  exec es2 s1 = Next M s2 -> Forall (fun e => forall t x, e <> Enqueue X t x) es2 -> (forall a nw b, es2 = a ++ Finish X nw true :: b -> count is_finish_call a = 0) -> step e s2 <> Undefined M.
Proof.
  intros hn h1 hf hc h2 he hd2 hu. assert (hx : exec (es1 ++ es2) (init M n h f m) = Next M s2) by (rewrite exec_app, h1; exact h2).
  destruct (pool_undefined n h f m _ s2 e hn hx hu) as (hd & hcase & _). assert (hq : quiet s2) by (apply (quiet_exec es2 s1 s2 h2 he); unfold quiet; rewrite hf; exact hc).
  pose proof (exec_good n h f m _ s1 hn h1) as hg1. destruct (exec_good n h f m _ s2 hn hx) as (l & b & g1 & g2 & _ & _). pose proof (b_fin _ _ _ _ _ g2) as hb. destruct hcase as [(t & w & ->)|[_ hl]].
  - cbn [PoolModel.step] in hu. unfold step_call in hu. unfold quiet in hq. destruct (fin M s2) as [| | | | |i j u| |] eqn:ef; cbn [fin_ok] in hb; try (rewrite hq in hu; discriminate).
    destruct hb as (-> & _ & h3 & [[_ hb]|[hb _]] & _); [congruence|lia].
  - pose proof (safe_exec n es2 s1 s2 h2 hg1 he (fun _ => hd2) ltac:(congruence) ltac:(congruence) hl). congruence.
Qed.

(** ** progress *)
Lemma pool_progress n h f m es s : (Z.of_nat n < two32)%Z -> exec es (init M n h f m) = Next M s -> (forall e, outside e = false -> step e s = Blocked M) ->
  calls M s = [] /\ (forall pc, In pc (workers M s) -> pc = WWait \/ pc = WExited) /\ (queued M s = [] \/ forall pc, In pc (workers M s) -> pc = WExited) /\
  (fin M s = FIdle \/ exists r, fin M s = FReturned r).
Proof.
  intros hn he hb. destruct (exec_good n h f m es s hn he) as (l & b & h1 & h2 & h3 & h4). pose proof (s_owner _ _ _ h1) as ho. pose proof (b_fin _ _ _ _ _ h2) as hfin.
  rewrite (nodes_holds _ _ _ (s_queue _ _ _ h1) : queued M s = l).
  (* nobody holds the mutex *)
  assert (hown : owner M s = None).
  { destruct (owner M s) as [a|] eqn:eo; [|reflexivity]. exfalso. assert (ha : holder (workers M s) (calls M s) (fin M s) a) by (apply ho; reflexivity). destruct a as [i|t|]; cbn [holder] in ha.
    - destruct ha as (pc & ei & hp). specialize (hb (Work X i) eq_refl). cbn [PoolModel.step] in hb. unfold step_worker in hb. rewrite ei in hb. destruct pc; try discriminate.
      destruct (Z.eqb _ _); [destruct (destroyed M s); discriminate|]. destruct (deq _ _) as [[]|]; discriminate.
    - destruct ha as (pc & hi & hp). assert (hfc : exists c1 pc' c2, find_call t (calls M s) = Some (c1, pc', c2) /\ pc' <> CLock).
      { pose proof (s_keys _ _ _ h1) as hk. clear -hi hp hk. induction (calls M s) as [|[u p] c IH]; [destruct hi|]. cbn [find_call map fst] in *. destruct (Nat.eqb_spec u t) as [->|hne].
        - destruct hi as [[= ->]|hi]; [eauto|]. exfalso. apply NoDup_cons_iff in hk as [hk _]. apply hk. change t with (fst (t, pc)). apply in_map. exact hi.
        - destruct hi as [[= -> ->]|hi]; [congruence|]. apply NoDup_cons_iff in hk as [_ hk]. destruct (IH hi hk) as (c1 & p' & c2 & e & hp'). rewrite e. eauto. }
      destruct hfc as (c1 & pc' & c2 & ef & hp').
      assert (hw : exists v, step_call M t v s <> Blocked M).
      { unfold step_call. rewrite ef. destruct pc'; [congruence| | |].
        - exists None. destruct (enq _ _ _) as [[]|]; discriminate.
        - destruct (existsb (fun pc => match pc with WWait => true | _ => false end) (workers M s)) eqn:ex.
          + apply existsb_exists in ex as (pw & hpw & e). destruct pw; try discriminate. apply In_nth_error in hpw as [i ei]. exists (Some i). rewrite ei. destruct (destroyed M s); discriminate.
          + exists None. destruct (destroyed M s); discriminate.
        - exists None. discriminate. }
      destruct hw as [v hv]. apply hv. exact (hb (Call X t v) eq_refl).
    - specialize (hb (Fin X None) eq_refl). cbn [PoolModel.step] in hb. unfold step_finish in hb. destruct (fin M s); discriminate. }
  assert (hcalls : calls M s = []).
  { destruct (calls M s) as [|[t pc] c] eqn:ec; [reflexivity|]. exfalso. destruct pc.
    - specialize (hb (Call X t None) eq_refl). cbn [PoolModel.step] in hb. unfold step_call, lock in hb. rewrite ec in hb. cbn [find_call] in hb. rewrite Nat.eqb_refl, hown in hb. destruct (destroyed M s); discriminate.
    - assert (hx : @None agent = Some (AC t)) by (rewrite <- hown; apply ho; exists CEnq; split; [left; reflexivity|discriminate]). discriminate.
    - assert (hx : @None agent = Some (AC t)) by (rewrite <- hown; apply ho; exists CSignal; split; [left; reflexivity|discriminate]). discriminate.
    - assert (hx : @None agent = Some (AC t)) by (rewrite <- hown; apply ho; exists CUnlock; split; [left; reflexivity|discriminate]). discriminate. }
  assert (hws : forall pc, In pc (workers M s) -> pc = WWait \/ pc = WExited).
  { intros pc hp. apply In_nth_error in hp as [i ei]. specialize (hb (Work X i) eq_refl). cbn [PoolModel.step] in hb. unfold step_worker, lock in hb. rewrite ei, hown in hb. destruct pc; auto; exfalso; try discriminate.
    - destruct (destroyed M s); discriminate.
    - assert (hx : @None agent = Some (AW i)) by (rewrite <- hown; apply ho; exists WCheck; auto). discriminate.
    - destruct (destroyed M s); discriminate.
    - destruct (is_finish M s t); discriminate.
    - destruct (nth_error code k); discriminate. }
  assert (hq : l = [] \/ forall pc, In pc (workers M s) -> pc = WExited).
  { destruct l as [|a l]; [auto|]. right. intros pc hp. destruct (hws pc hp) as [->|]; [|assumption]. exfalso. specialize (h4 hp). rewrite hcalls in h4. cbn in h4.
    assert (hz : checkers (workers M s) = 0); [|lia]. clear -hws. unfold checkers. induction (workers M s) as [|pc w IH]; [reflexivity|]. cbn [filter]. destruct (hws pc (or_introl eq_refl)) as [->| ->]; cbn [checks]; apply IH; intros; apply hws; right; assumption. }
  splits; auto. destruct (fin M s) as [| | | |i m0|i m0 t|i m0|r] eqn:ef; auto; [exfalso|exfalso|exfalso|exfalso|exfalso|exfalso|eauto].
  - specialize (hb (Fin X None) eq_refl). cbn [PoolModel.step] in hb. unfold step_finish, lock in hb. rewrite ef, hown in hb. destruct (destroyed M s); discriminate.
  - specialize (hb (Fin X None) eq_refl). cbn [PoolModel.step] in hb. unfold step_finish in hb. rewrite ef in hb. discriminate.
  - specialize (hb (Fin X None) eq_refl). cbn [PoolModel.step] in hb. unfold step_finish in hb. rewrite ef in hb. discriminate.
  - specialize (hb (Fin X None) eq_refl). cbn [PoolModel.step] in hb. unfold step_finish in hb. rewrite ef in hb. destruct (i <? m0); [discriminate|]. destruct (no_wait M s); discriminate.
  - cbn [fin_ok] in hfin. rewrite hcalls in hfin. destruct hfin as (_ & _ & _ & _ & []).
  - specialize (hb (Fin X None) eq_refl). cbn [PoolModel.step] in hb. unfold step_finish in hb. rewrite ef in hb. destruct (Nat.ltb_spec i m0); [|discriminate]. cbn [fin_ok] in hfin. destruct hfin as (_ & _ & _ & [(-> & f2 & _)|[-> _]]); [|lia].
    destruct (nth_error (workers M s) i) as [pc|] eqn:ei; [|apply nth_error_None in ei; rewrite (b_len _ _ _ _ _ h2) in ei; lia]. pose proof (nth_error_In _ _ ei) as hpi. destruct (hws pc hpi) as [->| ->].
    + (* all tasks that end threads are in the queue *)
      destruct hq as [->|hq]; [|specialize (hq _ hpi); discriminate]. pose proof (b_marks _ _ _ _ _ h2) as hm. unfold live in hm. rewrite hcalls in hm. cbn [pend flat_map app] in hm.
      assert (ht : takens (workers M s) = []). { clear -hws. induction (workers M s) as [|pc w IH]; [reflexivity|]. unfold takens in *. cbn [flat_map]. rewrite IH by (intros; apply hws; right; assumption). destruct (hws pc (or_introl eq_refl)) as [->| ->]; reflexivity. }
      rewrite ht in hm. cbn in hm. assert (hle : exited (workers M s) <= length (workers M s)) by apply filter_le. pose proof (b_len _ _ _ _ _ h2) as hlen. assert (hall : all_exited (workers M s)) by (apply all_exited_count; lia). apply (all_exited_in _ WWait hall) in hpi. discriminate.
    + destruct (_ =? 0); [destruct (destroyed M s)|]; discriminate.
Qed.

(** a finish that does not wait has ended all threads when nothing is left to do *)
Lemma pool_no_wait n h f m es s : (Z.of_nat n < two32)%Z -> exec es (init M n h f m) = Next M s -> (forall e, outside e = false -> step e s = Blocked M) -> fin M s = FReturned 0 ->
  forall pc, In pc (workers M s) -> pc = WExited.
Proof.
  intros hn he hb hf pc hp. destruct (pool_progress n h f m es s hn he hb) as (p1 & p2 & p3 & _). destruct (exec_good n h f m es s hn he) as (l & b & h1 & h2 & h3 & h4).
  destruct p3 as [p3|p3]; [|auto]. rewrite (nodes_holds _ _ _ (s_queue _ _ _ h1) : queued M s = l) in p3. pose proof (b_fin _ _ _ _ _ h2) as hfin. rewrite hf in hfin. destruct hfin as [_ hfin]. destruct (hfin eq_refl) as [[hn'|hall] _].
  - pose proof (b_marks _ _ _ _ _ h2) as hm. unfold live in hm. rewrite p1, p3 in hm. cbn [pend flat_map app] in hm.
    assert (ht : takens (workers M s) = []). { clear -p2. induction (workers M s) as [|q w IH]; [reflexivity|]. unfold takens in *. cbn [flat_map]. rewrite IH by (intros; apply p2; right; assumption). destruct (p2 q (or_introl eq_refl)) as [->| ->]; reflexivity. }
    rewrite ht in hm. cbn in hm. assert (hle : exited (workers M s) <= length (workers M s)) by apply filter_le. pose proof (b_len _ _ _ _ _ h2) as hl.
    apply (all_exited_in (workers M s)); [|exact hp]. apply all_exited_count. lia.
  - apply (all_exited_in (workers M s)); assumption.
Qed.
Lemma pool_all_done n h f m es s : (Z.of_nat n < two32)%Z -> exec es (init M n h f m) = Next M s -> (forall e, outside e = false -> step e s = Blocked M) -> 0 < n -> fin M s = FIdle -> ~ In ODiscarded (trace M s) ->
  Permutation (completed (trace M s)) (user_tasks (enqueued (trace M s))).
Proof.
  intros hn he hb hn0 hf hd. destruct (pool_progress n h f m es s hn he hb) as (p1 & p2 & p3 & _). destruct (pool_fifo n h f m es s hn he) as [_ hq]. specialize (hq hd).
  destruct (exec_good n h f m es s hn he) as (l & b & h1 & h2 & h3 & h4). assert (hl : queued M s = []).
  { destruct p3 as [p3|p3]; [exact p3|]. exfalso. pose proof (b_fin _ _ _ _ _ h2) as hfin. rewrite hf in hfin. destruct hfin as (-> & _). pose proof (b_marks _ _ _ _ _ h2) as hm. pose proof (b_len _ _ _ _ _ h2) as hw. destruct (workers M s) as [|pc w] eqn:ew; [cbn in hw; lia|].
    rewrite (p3 pc (or_introl eq_refl)) in hm. cbn in hm. lia. }
  rewrite hq, hl. cbn [map]. rewrite app_nil_r. apply (pool_once n h f m es s hn he). intros pc hp. destruct (p2 pc hp) as [->| ->]; auto.
Qed.

(** ** after all threads have ended *)
Lemma ended_step e s s' : trans e s s' -> all_exited (workers M s) -> workers M s' = workers M s /\ completed (trace M s') = completed (trace M s) /\ started (trace M s') = started (trace M s).
Proof.
  intros ht hall. assert (hno : forall (w1 : list wpc) pc w2, all_exited (w1 ++ pc :: w2) -> pc = WExited) by (intros w1 pc w2 hw; apply (all_exited_in _ _ hw); apply in_or_app; right; left; reflexivity).
  destruct ht; proj; snoc; cbn [completed started flat_map]; rewrite ?app_nil_r; auto; exfalso; apply hno in hall; try discriminate. destruct H; subst; discriminate.
Qed.
Lemma ended_exec es : forall s s', exec es s = Next M s' -> (forall pc, In pc (workers M s) -> pc = WExited) -> completed (trace M s') = completed (trace M s) /\ started (trace M s') = started (trace M s).
Proof.
  assert (g : forall s s', exec es s = Next M s' -> all_exited (workers M s) -> completed (trace M s') = completed (trace M s) /\ started (trace M s') = started (trace M s)).
  { induction es as [|e es IH]; intros s s' h hall; cbn [PoolModel.exec] in h; [injection h as <-; auto|]. destruct (step e s) as [| |s1] eqn:e1; try discriminate.
    destruct (ended_step e s s1 (step_trans _ _ _ _ _ _ _ e1) hall) as (w & c & d). destruct (IH s1 s' h) as [c' d']; [rewrite w; exact hall|]. rewrite c', d'. auto. }
  intros s s' h hw. apply (g s s' h). intros i hi. destruct (nth_error (workers M s) i) as [pc|] eqn:e; [|apply nth_error_None in e; lia]. f_equal. apply hw. apply nth_error_In in e. exact e.
Qed.
Lemma pool_again n h f m es s : (Z.of_nat n < two32)%Z -> exec es (init M n h f m) = Next M s -> fin M s = FReturned 0 -> no_wait M s = false \/ (forall e, outside e = false -> step e s = Blocked M) ->
  (forall pc, In pc (workers M s) -> pc = WExited) /\
  Permutation (completed (trace M s)) (user_tasks (dequeued (trace M s))) /\
  (0 < n -> ~ In ODiscarded (trace M s) ->
    (exists before after, trace M s = before ++ OFinish :: after /\ ~ In OFinish before /\
      (exists later, dequeued (trace M s) = enqueued before ++ later) /\
      (user_tasks (enqueued after) = [] -> forall t, In t (queued M s) -> is_finish M s t = true)) /\
    length (finish_tasks (enqueued (trace M s))) = n + length (filter (is_finish M s) (queued M s)) /\
    length (filter (is_finish M s) (queued M s)) <= n * (finish_calls (trace M s) - 1)).
Proof.
  intros hn e hf hw. destruct (exec_good n h f m es s hn e) as (l & b & h1 & h2 & h3 & h4). assert (hc : In OFinish (trace M s)) by (apply (c_called _ _ h3); rewrite hf; discriminate).
  assert (hex : forall pc, In pc (workers M s) -> pc = WExited).
  { destruct hw as [hw|hw]; [apply (pool_finish n h f m es s hn e hf hw)|apply (pool_no_wait n h f m es s hn e hw hf)]. }
  split; [exact hex|]. apply (pool_ended n h f m es s hn e hc). intros i hi. destruct (nth_error (workers M s) i) as [pc|] eqn:ei; [|apply nth_error_None in ei; lia]. f_equal. apply hex. apply nth_error_In in ei. exact ei.
Qed.

(** ** termination *)
Let T := 5 + length code.
Definition wweight (pc : wpc) : nat :=
  match pc with WExited => 0 | WWait => 1 | WCheck => 2 | WLock | WWake => 3 | WRun _ k => 4 + (length code - k) | WCall _ => 5 + length code | WUnlock _ => 6 + length code end.
Definition cweight (c : nat * cpc) : nat := match snd c with CUnlock => 1 | CSignal => 4 | CEnq => T + 5 | CLock => T + 6 end.
Definition fweight (n : nat) (f : fpc) : nat :=
  match f with
  | FIdle | FReturned _ => 0
  | FJoin i m => 1 + (m - i)
  | FMalloc i m => (m - i) * (T + 8) + m + 2
  | FCall i m _ => (m - S i) * (T + 8) + m + 3
  | FDiscardUnlock => n * (T + 8) + n + 3
  | FDiscardInit => n * (T + 8) + n + 4
  | FDiscardLock => n * (T + 8) + n + 5
  end.
Definition weight (n : nat) (s : pool) : nat := list_sum (map wweight (workers M s)) + list_sum (map cweight (calls M s)) + fweight n (fin M s) + T * length (queued M s).
Definition cost (n : nat) (e : event X) : nat :=
  match e with Enqueue _ _ => T + 6 | Spurious _ => 2 | Finish _ _ => n * (T + 8) + n + 5 | _ => 0 end.
Lemma sum_mid {A} (f : A -> nat) l1 x l2 : list_sum (map f (l1 ++ x :: l2)) = list_sum (map f l1) + f x + list_sum (map f l2).
Proof. rewrite map_app, list_sum_app. cbn [map]. change (list_sum (f x :: map f l2)) with (f x + list_sum (map f l2)). lia. Qed.
Lemma queued_list l s : structure l s -> queued M s = l.
Proof. intros h. apply nodes_holds. apply (s_queue _ _ _ h). Qed.
Lemma weight_step n b l l' e s s' : trans e s s' -> structure l s -> structure l' s' -> account n b l s ->
  weight n s' + (if outside e then 0 else 1) <= weight n s + cost n e.
Proof.
  intros ht hs hs' ha. unfold weight. rewrite (queued_list l s hs), (queued_list l' s' hs'). pose proof (s_queue _ _ _ hs) as hq. pose proof (s_queue _ _ _ hs') as hq'. pose proof (b_fin _ _ _ _ _ ha) as hb.
  destruct ht; proj; try (pose proof (holds_unique _ _ _ _ hq hq') as <-); cbn [outside cost]; rewrite ?sum_mid, ?map_app, ?list_sum_app; cbn [wweight cweight snd map]; change (list_sum []) with 0; try lia.
  - assert (hz : z <= n). { destruct H as [->|[r ->]]; cbn [fin_ok] in hb; [lia|]. apply (pool_base_size n z d w). tauto. } assert (hm : z * (T + 8) <= n * (T + 8)) by (apply Nat.mul_le_mono_r; exact hz).
    destruct dc; cbn [fweight]; rewrite ?Nat.sub_0_r; destruct H as [->|[r ->]]; cbn [fweight]; lia.
  - destruct H; subst; cbn [wweight]; lia.
  - destruct (deq_list _ _ _ _ _ hq H0) as (r & -> & hr). pose proof (holds_unique _ _ _ _ hr hq') as <-. cbn [length]. unfold T. lia.
  - apply nth_error_lt in H. lia.
  - assert (hl : length l' = S (length l)).
    { pose proof (b_bound _ _ _ _ _ ha) as hbd. proj. rewrite pend_mid, !app_length in hbd. cbn in hbd. destruct hq as (_ & _ & _ & _ & _ & hs1 & _). destruct hq' as (_ & _ & _ & _ & _ & hs2 & hs3). unfold enq in H0. destruct (if negb (qfirst q =? 0) then _ else _) as [[a b']|]; [|discriminate]. cbn [bind] in H0. destruct (need _); [|discriminate]. cbn [bind] in H0.
      apply (f_equal (fun o => match o with Some (a, _) => qsize a | None => 0%Z end)) in H0. cbn beta iota in H0. cbn [qsize] in H0. rewrite <- H0, hs1, u32_small in hs2 by lia. lia. }
    rewrite hl. lia.
  - cbn [fweight]. lia.
  - cbn [fweight]. lia.
  - pose proof (holds_unique _ _ _ _ (holds_init h) hq') as <-. cbn [fweight length]. lia.
  - cbn [fin_ok] in hb. apply pool_base_size in hb. assert (hm : z * (T + 8) <= n * (T + 8)) by (apply Nat.mul_le_mono_r; exact hb). cbn [fweight]. rewrite Nat.sub_0_r. lia.
  - cbn [fweight]. generalize ((n0 - i) * (T + 8)). lia.
  - cbn [fweight map cweight snd list_sum fold_right]. replace (n0 - i) with (S (n0 - S i)) by lia. lia.
  - cbn [fweight]. generalize ((n0 - i) * (T + 8)). lia.
  - cbn [fweight]. generalize ((n0 - i) * (T + 8)). lia.
  - cbn [fweight]. lia.
  - cbn [fweight]. lia.
Qed.
Definition costs (n : nat) (es : list (event X)) : nat := list_sum (map (cost n) es).
Lemma weight_exec n es : forall s s', exec es s = Next M s' -> good_state n s -> count (fun e => negb (outside e)) es + weight n s' <= weight n s + costs n es.
Proof.
  induction es as [|e es IH]; intros s s' h hg; cbn [PoolModel.exec] in h; [injection h as <-; cbn; lia|]. destruct (step e s) as [| |s1] eqn:e1; try discriminate. pose proof (good_step M X prepare code n e s s1 e1 hg) as hg1. specialize (IH s1 s' h hg1).
  destruct hg as (l & b & a1 & a2 & _). destruct hg1 as (l1 & b1 & a3 & _). pose proof (weight_step n b l l1 e s s1 (step_trans _ _ _ _ _ _ _ e1) a1 a3 a2) as hw.
  unfold count, costs in *. cbn [filter map list_sum fold_right]. change (fold_right Nat.add 0 (map (cost n) es)) with (list_sum (map (cost n) es)). destruct (outside e); cbn [negb length] in *; lia.
Qed.
Lemma costs_bound n es : costs n es <= (T + 6) * count is_enqueue es + 2 * count is_spurious es
  + (n * (T + 9) + 5) * count is_finish_call es.
Proof.
  unfold count, costs. induction es as [|e es IH]; [cbn; lia|]. cbn [map list_sum fold_right filter]. change (fold_right Nat.add 0 (map (cost n) es)) with (list_sum (map (cost n) es)).
  destruct e; cbn [cost length is_enqueue is_spurious is_finish_call] in *; try lia.
Qed.
Lemma pool_terminates n h f m es s : (Z.of_nat n < two32)%Z -> exec es (init M n h f m) = Next M s ->
  count (fun e => negb (outside e)) es <= 3 * n + (length code + 11) * count is_enqueue es
    + 2 * count is_spurious es
    + (n * (length code + 14) + 5) * count is_finish_call es.
Proof.
  intros hn he. pose proof (weight_exec n es _ _ he (good_init M X prepare n h f m hn)) as hw. pose proof (costs_bound n es) as hc.
  assert (h0 : weight n (init M n h f m) = 3 * n).
  { unfold weight, init, queued. proj. cbn [map fweight nodes Z.to_nat qsize queue_init length]. change (list_sum []) with 0. assert (e : list_sum (map wweight (repeat WLock n)) = 3 * n); [|lia].
    clear. induction n as [|n IH]; [reflexivity|]. cbn [repeat map]. change (list_sum (wweight WLock :: map wweight (repeat WLock n))) with (3 + list_sum (map wweight (repeat WLock n))). lia. }
  unfold T in *. replace (5 + length code + 6) with (length code + 11) in hc by lia. replace (5 + length code + 9) with (length code + 14) in hc by lia. lia.
Qed.
End Pool.
