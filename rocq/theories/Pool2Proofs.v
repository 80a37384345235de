(** Invariants of the thread pool: the tasks that end threads and the call of finish. *)
From Verif Require Import Base QueueModel QueueSpec QueueProofs PoolModel PoolSpec PoolTrans PoolProofs.
From Coq Require Import Permutation.

Definition is_exited (pc : wpc) : bool := match pc with WExited => true | _ => false end.
Definition exited (w : list wpc) : nat := length (filter is_exited w).
Definition marks (k : nat -> bool) (l : list nat) : nat := length (filter k l).
Definition all_exited (w : list wpc) : Prop := forall i, i < length w -> nth_error w i = Some WExited.
(** the pool has not been ended by a waiting finish, or completely *)
Definition pool_base (n z : nat) (d : bool) (w : list wpc) : Prop := (z = n /\ d = false) \/ (z = 0 /\ all_exited w).
(** [n]: number of threads, [b]: number of tasks that end threads, without discarded tasks *)
Definition fin_ok (n b : nat) (f : fpc) (z : nat) (d nw : bool) (c : list (nat * cpc)) (w : list wpc) : Prop :=
  match f with
  | FIdle => b = 0 /\ z = n /\ d = false
  | FDiscardLock | FDiscardInit | FDiscardUnlock => pool_base n z d w
  | FMalloc i m => m = z /\ i <= b /\ i <= m /\ pool_base n z d w
  | FCall i m t => m = z /\ S i <= b /\ S i <= m /\ pool_base n z d w /\ In t (map fst c)
  | FJoin i m => nw = false /\ i <= m /\ z = m - i /\ ((m = n /\ n <= b /\ (d = true -> i = n) /\ (forall j, j < i -> nth_error w j = Some WExited)) \/ (m = 0 /\ all_exited w))
  | FReturned r => pool_base n z d w /\ (r = 0%Z -> (n <= b \/ all_exited w) /\ (nw = false -> all_exited w))
  end.
(** tasks that finish has not created yet *)
Definition planned (n : nat) (f : fpc) : nat :=
  match f with FDiscardLock | FDiscardInit | FDiscardUnlock => n | FMalloc i m => m - i | FCall i m _ => m - S i | _ => 0 end.
Lemma filter_mid {A} (f : A -> bool) l1 x l2 : length (filter f (l1 ++ x :: l2)) = length (filter f l1) + (if f x then 1 else 0) + length (filter f l2).
Proof. rewrite filter_app, app_length. cbn [filter]. destruct (f x); cbn; lia. Qed.
Lemma filter_le {A} (f : A -> bool) l : length (filter f l) <= length l.
Proof. induction l as [|a l IH]; cbn [filter length]; [lia|]. destruct (f a); cbn [length]; lia. Qed.
Lemma exited_mid w1 pc w2 : exited (w1 ++ pc :: w2) = exited w1 + (if is_exited pc then 1 else 0) + exited w2.
Proof. apply filter_mid. Qed.
Lemma marks_app k a b : marks k (a ++ b) = marks k a + marks k b.
Proof. unfold marks. rewrite filter_app, app_length. reflexivity. Qed.
Lemma marks_ext k k' l : (forall t, In t l -> k' t = k t) -> marks k' l = marks k l.
Proof. intros h. unfold marks. rewrite (filter_ext_in k' k); [reflexivity|exact h]. Qed.
Lemma marks_1 k t : marks k [t] = if k t then 1 else 0.
Proof. unfold marks. cbn. destruct (k t); reflexivity. Qed.
Lemma exited_stays w1 pc pc' w2 j : pc <> WExited -> nth_error (w1 ++ pc :: w2) j = Some WExited -> nth_error (w1 ++ pc' :: w2) j = Some WExited.
Proof. intros hp h. destruct (Nat.eq_dec j (length w1)) as [->|hj]; [rewrite mid_eq in h; congruence|]. rewrite (mid_ne _ pc' pc) by exact hj. exact h. Qed.
Lemma all_exited_stays w1 pc pc' w2 : pc <> WExited -> all_exited (w1 ++ pc :: w2) -> all_exited (w1 ++ pc' :: w2).
Proof. intros hp h i hi. apply (exited_stays _ pc); [exact hp|]. apply h. rewrite app_length in *. exact hi. Qed.
Lemma all_exited_in w pc : all_exited w -> In pc w -> pc = WExited.
Proof. intros h hi. apply In_nth_error in hi as [i hi]. specialize (h i (nth_error_lt _ _ _ hi)). congruence. Qed.
Lemma all_exited_count w : exited w = length w <-> all_exited w.
Proof.
  split.
  - intros h i hi. destruct (nth_error w i) as [pc|] eqn:e; [|apply nth_error_None in e; lia]. f_equal. destruct (is_exited pc) eqn:ep; [destruct pc; (reflexivity || discriminate)|]. exfalso.
    destruct (nth_error_split w i e) as (w1 & w2 & -> & _). rewrite exited_mid, ep, app_length in h. cbn [length] in h. unfold exited in h. pose proof (filter_le is_exited w1). pose proof (filter_le is_exited w2). lia.
  - intros h. unfold exited. replace (filter is_exited w) with w; [reflexivity|]. symmetry. assert (hf : forall pc, In pc w -> is_exited pc = true) by (intros pc hp; rewrite (all_exited_in _ _ h hp); reflexivity).
    clear h. induction w as [|a w IH]; [reflexivity|]. cbn [filter]. rewrite (hf a) by (left; reflexivity). f_equal. apply IH. intros pc hp. apply hf. right. exact hp.
Qed.
Lemma pool_base_worker n z d w1 pc pc' w2 : pool_base n z d (w1 ++ pc :: w2) -> pc <> WExited -> pool_base n z d (w1 ++ pc' :: w2).
Proof. intros [h|[h1 h2]] hp; [left; exact h|right]. split; [exact h1|]. apply (all_exited_stays _ pc); auto. Qed.
Lemma fin_ok_worker n b f z d nw c w1 pc pc' w2 : fin_ok n b f z d nw c (w1 ++ pc :: w2) -> pc <> WExited -> fin_ok n b f z d nw c (w1 ++ pc' :: w2).
Proof.
  intros h hp. pose proof (pool_base_worker n z d w1 pc pc' w2) as hb. pose proof (all_exited_stays w1 pc pc' w2 hp) as ha. destruct f; cbn [fin_ok] in *; auto.
  - destruct h as (h1 & h2 & h3 & h4). auto.
  - destruct h as (h1 & h2 & h3 & h4 & h5). auto 6.
  - destruct h as (h1 & h2 & h3 & [(h4 & h5 & h6 & h7)|[h4 h5]]); splits; auto. left. splits; auto. intros j hj. apply (exited_stays _ pc); auto.
  - destruct h as (h1 & h2). split; auto. intros hr. destruct (h2 hr) as [[h3|h3] h4]; auto.
Qed.
Lemma fin_ok_calls n b f z d nw c c' w : fin_ok n b f z d nw c w -> (forall i m t, f = FCall i m t -> In t (map fst c) -> In t (map fst c')) -> fin_ok n b f z d nw c' w.
Proof. intros h hc. destruct f; cbn [fin_ok] in *; auto. destruct h as (h1 & h2 & h3 & h4 & h5). splits; auto. eapply hc; eauto. Qed.
Lemma pool_base_destroyed n z d w : pool_base n z d w -> d = true -> all_exited w.
Proof. intros [[_ ->]|[_ h]]; [discriminate|auto]. Qed.
Lemma pool_base_size n z d w : pool_base n z d w -> z <= n.
Proof. intros [[-> _]|[-> _]]; lia. Qed.
Lemma fin_ok_wait n b f z d nw c w : fin_ok n b f z d nw c w -> d = true -> all_exited w \/ length w <> n.
Proof.
  intros h hd. destruct f; cbn [fin_ok] in h; try (left; apply (pool_base_destroyed n z d); tauto).
  - destruct h as (_ & _ & h). congruence.
  - destruct h as (_ & _ & _ & [(_ & _ & h1 & h2)|[_ h1]]); [|auto]. destruct (Nat.eq_dec (length w) n); [|auto]. left. intros j hj. apply h2. rewrite (h1 hd). lia.
Qed.
Lemma fin_ok_planned n b f z d nw c w : fin_ok n b f z d nw c w -> planned n f <= n.
Proof.
  intros h. destruct f; cbn [fin_ok planned] in *; try lia.
  - destruct h as (-> & _ & _ & h). apply pool_base_size in h. lia.
  - destruct h as (-> & _ & _ & h & _). apply pool_base_size in h. lia.
Qed.
Lemma holds_unique q h l l' : holds q h l -> holds q h l' -> l = l'.
Proof. intros a b. rewrite <- (nodes_holds _ _ _ a). apply nodes_holds. exact b. Qed.

Section Pool.
Variables M X : Type.
Variable prepare : nat -> X -> M -> M.
Variable code : list (nat -> M -> M).
Notation pool := (pool M).
Notation mkp := (mkpool M).
Notation trans := (trans M X prepare code).
Notation structure := (structure M).

Record account (n b : nat) (l : list nat) (s : pool) : Prop := {
  b_len : length (workers M s) = n;
  b_marks : marks (is_finish M s) (live l (calls M s) (workers M s)) + exited (workers M s) = b;
  b_bound : (Z.of_nat (length l + length (pend (calls M s)) + planned n (fin M s)) < two32)%Z;
  b_fin : fin_ok n b (fin M s) (size M s) (destroyed M s) (no_wait M s) (calls M s) (workers M s) }.

Lemma account_init n h f m : (Z.of_nat n < two32)%Z -> account n 0 [] (init M n h f m).
Proof.
  intros hn. split; unfold init; cbn [workers calls is_finish fin size destroyed no_wait].
  - apply repeat_length.
  - unfold live, takens, exited, marks. cbn. clear. induction n; auto.
  - cbn. lia.
  - cbn. auto.
Qed.
Ltac proj := cbn [PoolModel.q next calls workers owner fin trace is_finish size destroyed no_wait] in *.
Lemma account_step e s s' l l' n b : trans e s s' -> structure l s -> structure l' s' -> account n b l s -> exists b', account n b' l' s'.
Proof.
  intros ht hs hs' ha. pose proof (s_queue _ _ _ hs) as hq. pose proof (s_queue _ _ _ hs') as hq'.
  destruct ht; destruct ha as [b1 b2 b3 b4]; proj; try (pose proof (holds_unique _ _ _ _ hq hq') as <-).
  - exists b. destruct (in_use_false _ _ _ _ hs H0) as [hl hk]. proj. split; proj; auto.
    + rewrite <- b2. unfold live. rewrite pend_new, !marks_app, marks_1, Nat.eqb_refl. unfold live in hl. rewrite !in_app_iff in hl.
      assert (hx : forall l, ~ In t l -> marks (fun a => if a =? t then false else k a) l = marks k l) by (intros l' hl'; apply marks_ext; intros u hu; destruct (Nat.eqb_spec u t); [subst; contradiction|reflexivity]). rewrite !hx by tauto. lia.
    + rewrite pend_new, app_length. cbn [length]. destruct hq as (_ & _ & _ & _ & _ & hz & _). assert (length (pend c) <= length c).
      { clear. unfold pend. induction c as [|[t pc] c IH]; [reflexivity|]. cbn [flat_map length]. rewrite app_length. destruct pc; cbn; lia. }
      rewrite hz in H1. apply fin_ok_planned in b4. lia.
    + apply (fin_ok_calls _ _ _ _ _ _ _ _ _ b4). intros. rewrite map_app, in_app_iff. auto.
  - exists b. split; proj; auto; [rewrite app_length in *; exact b1| |apply (fin_ok_worker _ _ _ _ _ _ _ _ _ _ _ b4); discriminate]. unfold live in *. rewrite takens_mid, exited_mid in *. exact b2.
  - exists b. assert (hp : pool_base n z d w). { destruct H as [->|[r ->]]; cbn [fin_ok] in b4; [left; tauto|tauto]. } pose proof (pool_base_size _ _ _ _ hp) as hz. split; proj; auto.
    + assert (hc : length (pend c) <= length c). { clear. unfold pend. induction c as [|[t pc] c IH]; [reflexivity|]. cbn [flat_map length]. rewrite app_length. destruct pc; cbn; lia. }
      destruct hq as (_ & _ & _ & _ & _ & hz' & _). rewrite hz' in H0. assert (planned n (if dc then FDiscardLock else FMalloc 0 z) <= n) by (destruct dc; cbn [planned]; lia). lia.
    + destruct dc; cbn [fin_ok]; splits; auto; lia.
  - exists b. assert (hp : taken pc = [] /\ is_exited pc = false) by (destruct H; subst; auto). destruct hp as [hp1 hp2]. split; proj; auto; [rewrite app_length in *; exact b1| |apply (fin_ok_worker _ _ _ _ _ _ _ _ _ _ _ b4); destruct H; subst; discriminate].
    unfold live in *. rewrite takens_mid, exited_mid in *. rewrite hp1, hp2 in b2. exact b2.
  - exists b. split; proj; auto; [rewrite app_length in *; exact b1| |apply (fin_ok_worker _ _ _ _ _ _ _ _ _ _ _ b4); discriminate]. unfold live in *. rewrite takens_mid, exited_mid in *. exact b2.
  - (* take *) exists b. destruct (deq_list _ _ _ _ _ hq H0) as (r & -> & hr). pose proof (holds_unique _ _ _ _ hr hq') as <-. split; proj; auto.
    + rewrite app_length in *; exact b1.
    + unfold live in *. rewrite takens_mid, exited_mid, !marks_app in *. cbn [taken] in *. rewrite marks_1. change (t :: r) with ([t] ++ r) in b2. rewrite marks_app, marks_1 in b2. cbn [is_exited] in *. change (marks k []) with 0 in b2. lia.
    + cbn [length] in b3. lia.
    + apply (fin_ok_worker _ _ _ _ _ _ _ _ _ _ _ b4). discriminate.
  - exists b. split; proj; auto; [rewrite app_length in *; exact b1| |apply (fin_ok_worker _ _ _ _ _ _ _ _ _ _ _ b4); discriminate]. unfold live in *. rewrite takens_mid, exited_mid in *. exact b2.
  - (* exit *) exists b. split; proj; auto; [rewrite app_length in *; exact b1| |apply (fin_ok_worker _ _ _ _ _ _ _ _ _ _ _ b4); discriminate]. unfold live in *. rewrite takens_mid, exited_mid, !marks_app in *. cbn [taken is_exited] in *. rewrite marks_1, H in b2. change (marks k []) with 0. lia.
  - exists b. split; proj; auto; [rewrite app_length in *; exact b1| |apply (fin_ok_worker _ _ _ _ _ _ _ _ _ _ _ b4); discriminate]. unfold live in *. rewrite takens_mid, exited_mid, !marks_app in *. cbn [taken is_exited] in *. rewrite marks_1, H in b2. change (marks k []) with 0. lia.
  - exists b. split; proj; auto; [rewrite app_length in *; exact b1| |apply (fin_ok_worker _ _ _ _ _ _ _ _ _ _ _ b4); discriminate]. unfold live in *. rewrite takens_mid, exited_mid in *. exact b2.
  - exists b. split; proj; auto; [rewrite app_length in *; exact b1| |apply (fin_ok_worker _ _ _ _ _ _ _ _ _ _ _ b4); discriminate]. unfold live in *. rewrite takens_mid, exited_mid in *. exact b2.
  - (* call: lock *) exists b. split; proj; auto; [| |apply (fin_ok_calls _ _ _ _ _ _ _ _ _ b4); intros; rewrite map_app in *; assumption].
    + unfold live in *. rewrite pend_mid in *. exact b2.
    + rewrite pend_mid in *. exact b3.
  - (* call: enqueue *) exists b. assert (hl : l' = l ++ [t]).
    { pose proof (s_live _ _ _ hs) as a2. pose proof (s_zero _ _ _ hs) as a3. proj. assert (ht : t <> 0 /\ ~ In t l).
      { unfold live in *. rewrite pend_mid in *. unfold pend1 in *. cbn [fst snd app] in *. split; [intros ->; apply a3; rewrite !in_app_iff; cbn; auto|]. intros hi.
        assert (a2' : NoDup (t :: l ++ (pend c1 ++ pend c2) ++ takens w)) by (refine (Permutation_NoDup _ a2); rewrite <- !app_assoc; cbn [app]; rewrite !(app_assoc l); symmetry; apply Permutation_middle).
        apply NoDup_cons_iff in a2' as [a2' _]. apply a2'. rewrite in_app_iff. auto. }
      destruct (enq_holds q h l t hq (proj1 ht) (proj2 ht)) as (q2 & h2 & e2 & h3 & _); [rewrite pend_mid, !app_length in b3; cbn in b3; lia|]. rewrite e2 in H0. injection H0 as <- <-. apply (holds_unique _ _ _ _ hq' h3). }
    subst l'. split; proj; auto; [| |apply (fin_ok_calls _ _ _ _ _ _ _ _ _ b4); intros; rewrite map_app in *; assumption].
    + unfold live in *. rewrite pend_mid, !marks_app in *. unfold pend1 in *. cbn [fst snd] in *. change (marks k []) with 0. lia.
    + rewrite pend_mid, !app_length in *. unfold pend1 in *. cbn [fst snd length] in *. lia.
  - exists b. split; proj; auto; [| |apply (fin_ok_calls _ _ _ _ _ _ _ _ _ b4); intros; rewrite map_app in *; assumption].
    + unfold live in *. rewrite pend_mid in *. exact b2.
    + rewrite pend_mid in *. exact b3.
  - exists b. split; proj; auto; [rewrite app_length in *; exact b1| | |apply (fin_ok_worker _ _ _ _ _ _ _ _ WWait); [|discriminate]; apply (fin_ok_calls _ _ _ _ _ _ _ _ _ b4); intros; rewrite map_app in *; assumption].
    + unfold live in *. rewrite pend_mid, takens_mid, exited_mid in *. exact b2.
    + rewrite pend_mid in *. exact b3.
  - (* call: unlock *) exists b. split; proj; auto.
    + unfold live in *. rewrite pend_mid in b2. unfold pend at 1. rewrite flat_map_app. exact b2.
    + rewrite pend_mid in b3. unfold pend. rewrite flat_map_app. exact b3.
    + apply (fin_ok_calls _ _ _ _ _ _ _ _ _ b4). intros i m0 u -> hu. rewrite map_app in *. rewrite in_app_iff in *. cbn [map fst In] in hu. destruct hu as [?|[<-|?]]; auto. exfalso. apply (H0 i m0). reflexivity.
  - exists b. split; proj; auto.
    + unfold live in *. rewrite pend_mid in b2. unfold pend at 1. rewrite flat_map_app. exact b2.
    + rewrite pend_mid in b3. unfold pend. rewrite flat_map_app. exact b3.
    + cbn [fin_ok] in *. destruct b4 as (h1 & h2 & h3 & h4 & h5). splits; auto.
  - exists b. split; proj; auto.
  - (* discard *) eexists. pose proof (holds_unique _ _ _ _ (holds_init h) hq') as <-. split; proj; auto. cbn [length planned] in *. lia.
  - exists b. cbn [fin_ok planned] in *. pose proof (pool_base_size _ _ _ _ b4). split; proj; auto; [cbn [planned]; lia|]. cbn [fin_ok]. splits; auto; lia.
  - exists b. cbn [fin_ok planned] in *. destruct b4 as (h1 & h2 & h3 & h4). split; proj; auto; [cbn [planned]; lia|]. cbn [fin_ok]. split; [exact h4|discriminate].
  - (* malloc *) exists (S b). destruct (in_use_false _ _ _ _ hs H1) as [hl hk]. proj. cbn [fin_ok planned] in *. destruct b4 as (-> & h2 & h3 & h4). split; proj; auto.
    + rewrite <- b2. unfold live. rewrite pend_new, !marks_app, marks_1, Nat.eqb_refl. unfold live in hl. rewrite !in_app_iff in hl.
      assert (hx : forall l, ~ In t l -> marks (fun a => if a =? t then true else k a) l = marks k l) by (intros l' hl'; apply marks_ext; intros u hu; destruct (Nat.eqb_spec u t); [subst; contradiction|reflexivity]). rewrite !hx by tauto. lia.
    + rewrite pend_new, app_length. cbn [length planned]. lia.
    + cbn [fin_ok]. splits; auto; try lia. rewrite map_app, in_app_iff. cbn. auto.
  - exists b. cbn [fin_ok planned] in *. destruct b4 as (-> & h2 & h3 & h4). split; proj; auto; [cbn [planned]; lia|]. cbn [fin_ok]. split; [exact h4|]. intros _. split; [|discriminate]. destruct h4 as [[-> _]|[_ h4]]; [left; lia|auto].
  - exists b. cbn [fin_ok planned] in *. destruct b4 as (-> & h2 & h3 & h4). split; proj; auto; [cbn [planned]; lia|]. cbn [fin_ok]. splits; auto; try lia. destruct h4 as [[-> ->]|[-> h4]]; [left|auto]. splits; auto; try lia; discriminate.
  - (* join *) exists b. split; proj; auto. cbn [fin_ok] in *. destruct b4 as (h1 & h2 & h3 & h4). splits; auto; try lia. destruct h4 as [(-> & h5 & h6 & h7)|[-> _]]; [|lia]. left. splits; auto.
    + intros hd. destruct (Nat.eqb_spec (z - 1) 0); [lia|]. subst d'. specialize (h6 hd). lia.
    + intros j hj. destruct (Nat.eq_dec j (length w1)) as [->|]; [apply mid_eq|]. apply h7. lia.
  - exists b. split; proj; auto. cbn [fin_ok] in *. destruct b4 as (h1 & h2 & h3 & h4). assert (hall : all_exited w). { destruct h4 as [(-> & h5 & h6 & h7)|[-> h4]]; [|exact h4]. intros j hj. apply h7. lia. }
    split; [right; split; [lia|exact hall]|]. auto.
Qed.
End Pool.
