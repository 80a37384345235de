From Verif Require Import Base ParFailModel ParFailSpec.

Lemma forallb_room jobs : forallb room jobs = true <-> Forall (fun j => room j = true) jobs.
Proof. rewrite forallb_forall, Forall_forall. reflexivity. Qed.
Lemma first_failure_quiet a b : Forall quiet a -> first_failure (a ++ b) = first_failure b.
Proof. induction 1 as [|j a H _ IH]; [reflexivity|]. simpl. unfold quiet in H. rewrite H. exact IH. Qed.
Lemma split_nth {A} (l : list A) i x : nth_error l i = Some x -> l = firstn i l ++ x :: skipn (S i) l.
Proof. revert i. induction l as [|y l IH]; intros [|i] H; simpl in *; try discriminate; [congruence|]. f_equal. auto. Qed.
Lemma firstn_next {A} (l : list A) i x : nth_error l i = Some x -> firstn (S i) l = firstn i l ++ [x].
Proof. revert i. induction l as [|y l IH]; intros [|i] H; simpl in *; try discriminate; [congruence|]. f_equal. auto. Qed.

(** every case is harmless or harmful *)
Lemma cases array_room jobs : harmless array_room jobs \/ harmful array_room jobs.
Proof.
  destruct array_room; [|left; constructor].
  assert (H : Forall (fun j => room j = true) jobs \/ exists a x b, jobs = a ++ x :: b /\ Forall (fun j => room j = true) a /\ room x = false).
  { induction jobs as [|j jobs IH]; [auto|]. destruct (room j) eqn:E; [|right; exists [], j, jobs; auto].
    destruct IH as [IH|(a & x & b & -> & H1 & H2)]; [left; auto|right; exists (j :: a), x, b; auto]. }
  destruct H as [H|(a & x & b & -> & H1 & H2)].
  2: { destruct a as [|j a]; [left; constructor; exact H2|right]. constructor; auto. discriminate. }
  assert (H' : Forall quiet jobs \/ exists a x b, jobs = a ++ x :: b /\ Forall quiet a /\ ~ quiet x).
  { clear H. induction jobs as [|j jobs IH]; [auto|]. unfold quiet. destruct (outcome j) eqn:E; [right; exists [], j, jobs; splits; auto; unfold quiet; congruence|].
    destruct IH as [IH|(a & x & b & -> & H1 & H2)]; [left; auto|right; exists (j :: a), x, b; auto]. }
  destruct H' as [H'|(a & x & b & -> & H1 & H2)]; [left; constructor; auto|].
  destruct b as [|y b]; [left; apply LastFails; auto|right; apply EarlierFails; auto; discriminate].
Qed.

Definition zeros (l : list nat) : Prop := Forall (fun x => x = 0) l.
Record inv (array_room : bool) (jobs : list job) (s : state) : Prop := {
  i_alive : (match at_ s with Returned _ => False | _ => True end) -> futures_alive s = true /\ events_alive s = true;
  i_phase : match at_ s with
    | Counting => tasks s = []
    | Distributing => array_room = true /\ length (tasks s) <= length jobs /\ Forall (fun j => room j = true) (firstn (length (tasks s)) jobs)
    | Merging => array_room = true /\ Forall (fun j => room j = true) jobs /\ length (tasks s) = length jobs /\ merged s <= length jobs /\
        Forall quiet (firstn (merged s) jobs) /\ zeros (firstn (merged s) (tasks s))
    | Returned r => r = expected array_room jobs /\ (r = None -> zeros (tasks s) /\ length (tasks s) = length jobs) /\
        (harmless array_room jobs -> zeros (tasks s)) /\ futures_alive s = false /\ (events_alive s = true <-> r = None)
    end
}.
Lemma inv_start array_room jobs : inv array_room jobs start.
Proof. constructor; simpl; auto. Qed.
Lemma harmless_no_block jobs i j : harmless true jobs -> nth_error jobs i = Some j -> room j = false -> Forall (fun j => room j = true) (firstn i jobs) -> i = 0.
Proof.
  intros H Hn Hr Hf. inversion H as [|j0 rest H1|jobs' H1 H2|jobs' j0 H1 H2]; subst.
  - destruct i as [|i]; [reflexivity|]. simpl in Hf. inversion Hf; subst. congruence.
  - rewrite Forall_forall in H1. apply nth_error_In in Hn. apply H1 in Hn. congruence.
  - rewrite Forall_forall in H1. apply nth_error_In in Hn. apply H1 in Hn. congruence.
Qed.
Lemma harmless_failure jobs i j : harmless true jobs -> Forall (fun j => room j = true) jobs -> nth_error jobs i = Some j -> ~ quiet j -> S i = length jobs.
Proof.
  intros H Hr Hn Hq. inversion H as [|j0 rest H1|jobs' H1 H2|jobs' j0 H1 H2]; subst.
  - inversion Hr; subst. congruence.
  - rewrite Forall_forall in H2. apply nth_error_In in Hn. apply H2 in Hn. contradiction.
  - assert (Hl := nth_error_lt _ _ _ Hn). rewrite app_length in *. simpl in *. destruct (Nat.eq_dec i (length jobs')) as [->|]; [lia|].
    rewrite nth_error_app1 in Hn by lia. rewrite Forall_forall in H2. apply nth_error_In in Hn. apply H2 in Hn. contradiction.
Qed.
Lemma zeros_next l i : zeros (firstn i l) -> nth_error l i = Some 0 -> zeros (firstn (S i) l).
Proof. intros H Hn. rewrite (firstn_next _ _ _ Hn). apply Forall_app. split; [exact H|auto]. Qed.
Lemma main_inv array_room jobs s : inv array_room jobs s -> inv array_room jobs (main_step array_room jobs s).
Proof.
  intros [Ha Hp]. unfold main_step. destruct (at_ s) eqn:Ep.
  - destruct (Ha I) as [H1 H2]. destruct array_room; constructor; simpl; auto; try tauto.
    + splits; auto. lia.
    + splits; auto; try discriminate. rewrite Hp. intros _. constructor. split; discriminate.
  - destruct (Ha I) as [H1 H2]. destruct Hp as (-> & Hl & Hr). destruct (nth_error jobs (length (tasks s))) as [j|] eqn:En.
    + destruct (room j) eqn:Er; constructor; simpl; auto; try tauto.
      * assert (Hlt := nth_error_lt _ _ _ En). rewrite app_length. simpl. rewrite Nat.add_1_r. splits; auto.
        rewrite (firstn_next _ _ _ En). apply Forall_app. auto.
      * splits; auto; try discriminate.
        -- unfold expected. simpl. destruct (forallb room jobs) eqn:E; [|reflexivity]. apply forallb_room in E. rewrite Forall_forall in E. apply nth_error_In in En. apply E in En. congruence.
        -- intros H. assert (Hz := harmless_no_block _ _ _ H En Er Hr). destruct (tasks s); [constructor|discriminate].
        -- split; discriminate.
    + apply nth_error_None in En. constructor; simpl; auto. assert (Hle : length (tasks s) = length jobs) by lia. rewrite Hle, firstn_all in Hr. splits; auto; try lia; constructor.
  - destruct (Ha I) as [H1 H2]. destruct Hp as (-> & Hr & Hl & Hm & Hq & Hz). destruct (nth_error jobs (merged s)) as [j|] eqn:En.
    + destruct (nth_error (tasks s) (merged s)) as [[|k]|] eqn:Et.
      * destruct (outcome j) as [id|] eqn:Eo; constructor; simpl; auto; try tauto.
        -- splits; auto; try discriminate.
           ++ unfold expected. rewrite (proj2 (forallb_room jobs) Hr). simpl. rewrite (split_nth _ _ _ En), first_failure_quiet by exact Hq. simpl. rewrite Eo. reflexivity.
           ++ intros H. assert (Hlast := harmless_failure _ _ _ H Hr En ltac:(unfold quiet; congruence)).
              assert (Hz' := zeros_next _ _ Hz Et). rewrite Hlast, <- Hl, firstn_all in Hz'. exact Hz'.
           ++ split; discriminate.
        -- assert (Hlt := nth_error_lt _ _ _ En). splits; auto; [|apply (zeros_next _ _ Hz Et)]. change (Forall quiet (firstn (S (merged s)) jobs)). rewrite (firstn_next _ _ _ En). apply Forall_app. auto.
      * constructor; rewrite ?Ep; auto. splits; auto.
      * constructor; rewrite ?Ep; auto. splits; auto.
    + apply nth_error_None in En. assert (Hme : merged s = length jobs) by lia. rewrite Hme in Hq, Hz. rewrite firstn_all in Hq. rewrite <- Hl, firstn_all in Hz.
      assert (He : None = expected true jobs).
      { unfold expected. rewrite (proj2 (forallb_room jobs) Hr). simpl. rewrite <- (app_nil_r jobs), first_failure_quiet by exact Hq. reflexivity. }
      constructor; simpl; [tauto|]. splits; auto. split; auto.
  - constructor; rewrite ?Ep; auto.
Qed.
Lemma zeros_aset l i k l' m : nth_error l i = Some (S k) -> aset l i k = Some l' -> zeros (firstn m l) -> zeros (firstn m l').
Proof.
  revert i l' m. induction l as [|x l IH]; intros [|i] l' [|m] Hn Hs Hz; simpl in *; try discriminate; try constructor.
  - injection Hn as ->. inversion Hz. discriminate.
  - destruct (aset l i k) as [l2|] eqn:E; [|discriminate]. simpl in Hs. injection Hs as <-. inversion Hz; subst. constructor; [reflexivity|]. eapply IH; eassumption.
Qed.
Lemma zeros_no l i k : zeros l -> nth_error l i = Some (S k) -> False.
Proof. unfold zeros. rewrite Forall_forall. intros H Hn. apply nth_error_In in Hn. apply H in Hn. discriminate. Qed.
Lemma worker_inv array_room jobs s i s' : inv array_room jobs s -> worker_step i s = Some s' -> inv array_room jobs s'.
Proof.
  intros [Ha Hp] H. unfold worker_step in H. destruct (nth_error (tasks s) i) as [[|k]|] eqn:En; try (injection H as <-; constructor; auto; fail).
  destruct (futures_alive s && events_alive s) eqn:Eal; [|discriminate]. cbn [need bind] in H.
  destruct (aset (tasks s) i k) as [ts|] eqn:Es; [|discriminate]. cbn [bind] in H. injection H as <-.
  assert (Hlen := aset_length _ _ _ _ Es).
  constructor; simpl; [exact Ha|]. destruct (at_ s) eqn:Ep.
  - rewrite Hp in En. destruct i; discriminate.
  - rewrite Hlen. exact Hp.
  - rewrite Hlen. destruct Hp as (H1 & H2 & H3 & H4 & H5 & H6). splits; auto. eapply zeros_aset; eauto.
  - apply andb_true_iff in Eal as [E1 E2]. destruct Hp as (H1 & H2 & H3 & H4 & H5). congruence.
Qed.
Lemma run_inv array_room jobs schedule : forall s s', inv array_room jobs s -> run array_room jobs schedule s = Some s' -> inv array_room jobs s'.
Proof.
  induction schedule as [|[|i] sch IH]; intros s s' Hi H; simpl in H.
  - injection H as <-. exact Hi.
  - exact (IH _ _ (main_inv _ _ _ Hi) H).
  - destruct (worker_step i s) as [s1|] eqn:E; [|discriminate]. exact (IH _ _ (worker_inv _ _ _ _ _ Hi E) H).
Qed.
Lemma returned_status array_room jobs schedule s r : run array_room jobs schedule start = Some s -> at_ s = Returned r ->
  r = expected array_room jobs /\ (events_alive s = true <-> r = None) /\ (r = None -> length (tasks s) = length jobs /\ Forall (fun x => x = 0) (tasks s)).
Proof.
  intros H Hr. assert (Hi := run_inv _ _ _ _ _ (inv_start array_room jobs) H). 
  assert (Hp := i_phase _ _ _ Hi); rewrite Hr in Hp; destruct Hp as (H1 & H2 & H3 & H4 & H5); splits; auto; intros E; destruct (H2 E); auto.
Qed.
Lemma run_app array_room jobs a b s : run array_room jobs (a ++ b) s = (s' <- run array_room jobs a s ;; run array_room jobs b s').
Proof. revert s. induction a as [|c a IH]; intros s; simpl; [reflexivity|]. destruct (step array_room jobs c s); simpl; auto. Qed.

(** harmless cases *)
Lemma worker_safe array_room jobs s i : inv array_room jobs s -> harmless array_room jobs -> exists s', worker_step i s = Some s'.
Proof.
  intros [Ha Hp] Hh. unfold worker_step. destruct (nth_error (tasks s) i) as [[|k]|] eqn:En; eauto.
  assert (Hal : futures_alive s = true /\ events_alive s = true).
  { destruct (at_ s) eqn:Ep; auto. destruct Hp as (_ & _ & H & _). destruct (zeros_no _ _ _ (H Hh) En). }
  destruct Hal as [-> ->]. cbn [andb need bind]. destruct (aset (tasks s) i k) as [ts|] eqn:Es; [cbn [bind]; eauto|].
  apply nth_error_lt in En. destruct (aset_some _ _ k En) as [ts E]. congruence.
Qed.
Lemma safe array_room jobs schedule : harmless array_room jobs -> forall s, inv array_room jobs s -> exists s', run array_room jobs schedule s = Some s'.
Proof.
  intros Hh. induction schedule as [|[|i] sch IH]; intros s Hi; simpl; [eauto|apply IH, main_inv, Hi|].
  destruct (worker_safe _ _ _ i Hi Hh) as [s1 E]. rewrite E. simpl. apply IH. eapply worker_inv; eauto.
Qed.
(** every state before the return can be continued to the return *)
Lemma work_off array_room jobs i : forall k s, nth_error (tasks s) i = Some k -> futures_alive s = true -> events_alive s = true ->
  exists s', run array_room jobs (repeat (Worker i) k) s = Some s' /\ nth_error (tasks s') i = Some 0 /\ at_ s' = at_ s /\ merged s' = merged s /\
    length (tasks s') = length (tasks s) /\ futures_alive s' = true /\ events_alive s' = true /\ forall m, m <> i -> nth_error (tasks s') m = nth_error (tasks s) m.
Proof.
  induction k as [|k IH]; intros s Hn Hf He; [exists s; splits; auto|]. simpl. unfold worker_step. rewrite Hn, Hf, He. cbn [andb need bind].
  destruct (aset (tasks s) i k) as [ts|] eqn:Es; [|apply nth_error_lt in Hn; destruct (aset_some _ _ k Hn) as [ts E]; congruence]. cbn [bind].
  destruct (IH (mkstate (at_ s) ts (merged s) true true)) as (s' & H1 & H2 & H3 & H4 & H5 & H6 & H7 & H8); simpl; auto.
  { rewrite (aset_get _ _ _ _ _ Es), Nat.eqb_refl. reflexivity. }
  simpl in *. exists s'. rewrite (aset_length _ _ _ _ Es) in H5. splits; auto. intros m Hm. rewrite H8 by exact Hm. rewrite (aset_get _ _ _ _ _ Es).
  apply Nat.eqb_neq in Hm. rewrite Hm. reflexivity.
Qed.
Definition left_steps (jobs : list job) (s : state) : nat :=
  match at_ s with
  | Counting => 2 * length jobs + 3
  | Distributing => 2 * length jobs + 2 - length (tasks s)
  | Merging => length jobs + 1 - merged s
  | Returned _ => 0
  end.
Lemma can_return array_room jobs : forall d s, left_steps jobs s <= d -> inv array_room jobs s ->
  exists schedule s' r, run array_room jobs schedule s = Some s' /\ at_ s' = Returned r.
Proof.
  assert (Main1 : forall d s, (forall s, left_steps jobs s <= d -> inv array_room jobs s -> exists schedule s' r, run array_room jobs schedule s = Some s' /\ at_ s' = Returned r) ->
    inv array_room jobs s -> left_steps jobs (main_step array_room jobs s) <= d -> exists schedule s' r, run array_room jobs schedule s = Some s' /\ at_ s' = Returned r).
  { intros d s IH Hi Hd. destruct (IH _ Hd (main_inv _ _ _ Hi)) as (sch & s' & r & H1 & H2). exists (Main :: sch), s', r. auto. }
  induction d as [|d IH]; intros s Hd Hi.
  { destruct (at_ s) eqn:Ep; unfold left_steps in Hd; rewrite Ep in Hd; try lia; [| |eexists [], s, _; split; [reflexivity|exact Ep]].
    - assert (Hp := i_phase _ _ _ Hi). rewrite Ep in Hp. lia.
    - assert (Hp := i_phase _ _ _ Hi). rewrite Ep in Hp. lia. }
  assert (Hp := i_phase _ _ _ Hi). assert (Ha := i_alive _ _ _ Hi). unfold left_steps in Hd. destruct (at_ s) eqn:Ep.
  - apply (Main1 d s IH Hi). unfold main_step. rewrite Ep. destruct array_room; unfold left_steps; simpl; lia.
  - apply (Main1 d s IH Hi). unfold main_step. rewrite Ep. destruct Hp as (-> & Hl & _). destruct (nth_error jobs (length (tasks s))) as [j|] eqn:En.
    + apply nth_error_lt in En. destruct (room j); unfold left_steps; simpl; rewrite ?app_length; simpl; lia.
    + apply nth_error_None in En. unfold left_steps; simpl; lia.
  - destruct Hp as (-> & Hr & Hl & Hm & Hq & Hz). destruct (Ha I) as [Hf He]. destruct (nth_error jobs (merged s)) as [j|] eqn:En.
    + assert (Hlt := nth_error_lt _ _ _ En). destruct (nth_error (tasks s) (merged s)) as [k|] eqn:Et; [|apply nth_error_None in Et; lia].
      destruct (work_off true jobs (merged s) k s Et Hf He) as (s1 & H1 & H2 & H3 & H4 & H5 & H6 & H7 & H8).
      assert (Hi1 := run_inv _ _ _ _ _ Hi H1).
      destruct (Main1 d s1 IH Hi1) as (sch & s2 & r & H9 & H10).
      { unfold main_step. rewrite H3, Ep, H4, En, H2. destruct (outcome j); unfold left_steps; simpl; lia. }
      exists (repeat (Worker (merged s)) k ++ sch), s2, r. split; [rewrite run_app, H1; exact H9|exact H10].
    + apply (Main1 d s IH Hi). unfold main_step. rewrite Ep, En. unfold left_steps. simpl. lia.
  - eexists [], s, _. split; [reflexivity|exact Ep].
Qed.
Lemma harmless_returns array_room jobs schedule : harmless array_room jobs -> exists s schedule' s' r,
  run array_room jobs schedule start = Some s /\ run array_room jobs schedule' s = Some s' /\ at_ s' = Returned r.
Proof.
  intros Hh. destruct (safe array_room jobs schedule Hh start (inv_start _ _)) as [s H]. exists s.
  destruct (can_return array_room jobs _ s (le_n _) (run_inv _ _ _ _ _ (inv_start _ _) H)) as (sch & s' & r & H1 & H2). eauto 6.
Qed.

(** harmful cases *)
Lemma distribute jobs : forall a b ts, jobs = firstn (length ts) jobs ++ a ++ b -> length ts <= length jobs -> Forall (fun j => room j = true) a ->
  run true jobs (repeat Main (length a)) (mkstate Distributing ts 0 true true) = Some (mkstate Distributing (ts ++ map (fun j => S (work j)) a) 0 true true).
Proof.
  induction a as [|j a IH]; intros b ts Hj Hl Hr; [simpl; rewrite app_nil_r; reflexivity|]. inversion Hr; subst.
  cbn [length repeat run step]. unfold main_step. cbn [at_ tasks].
  assert (Hn : nth_error jobs (length ts) = Some j).
  { rewrite Hj. rewrite nth_error_app2 by (rewrite firstn_length; lia). rewrite firstn_length. replace (length ts - Nat.min (length ts) (length jobs)) with 0 by lia. reflexivity. }
  assert (Hlt := nth_error_lt _ _ _ Hn). rewrite Hn, H1. cbn [bind merged futures_alive events_alive].
  rewrite (IH b); [simpl; rewrite <- app_assoc; reflexivity| |rewrite app_length; simpl; lia|exact H2].
  rewrite app_length. simpl. rewrite Nat.add_1_r, (firstn_next _ _ _ Hn), <- app_assoc. exact Hj.
Qed.
Lemma merge_quiet jobs x b : forall m k ts, m + k <= length jobs -> length ts = length jobs -> Forall quiet (firstn (m + k) jobs) ->
  zeros (firstn m ts) -> jobs = firstn (m + k) jobs ++ x :: b ->
  exists schedule ts', run true jobs schedule (mkstate Merging ts m true true) = Some (mkstate Merging ts' (m + k) true true) /\ length ts' = length ts /\
    (forall i, m + k <= i -> nth_error ts' i = nth_error ts i).
Proof.
  intros m k. revert m. induction k as [|k IH]; intros m ts Hm Hl Hq Hz Hj; [exists [], ts; rewrite Nat.add_0_r; splits; auto|].
  destruct (nth_error jobs m) as [j|] eqn:En; [|apply nth_error_None in En; lia].
  destruct (nth_error ts m) as [w|] eqn:Et; [|apply nth_error_None in Et; lia].
  destruct (work_off true jobs m w (mkstate Merging ts m true true) Et eq_refl eq_refl) as (s1 & H1 & H2 & H3 & H4 & H5 & H6 & H7 & H8).
  destruct s1 as [p1 ts1 m1 f1 e1]. simpl in *. subst p1 m1 f1 e1.
  assert (Hqj : quiet j).
  { rewrite Forall_forall in Hq. apply Hq. apply (nth_error_In _ m). rewrite nth_error_firstn by lia. exact En. }
  destruct (IH (S m) ts1) as (sch & ts' & H9 & H10 & H11); try lia.
  - replace (S m + k) with (m + S k) by lia. exact Hq.
  - apply zeros_next; [|exact H2]. unfold zeros in *. rewrite Forall_forall in *. intros y Hy. apply In_nth_error in Hy as [i Hi]. 
    destruct (Nat.lt_ge_cases i m); [|rewrite nth_error_firstn_ge in Hi by lia; discriminate]. rewrite nth_error_firstn in Hi by lia.
    rewrite H8 in Hi by lia. apply Hz. apply (nth_error_In _ i). rewrite nth_error_firstn by lia. exact Hi.
  - replace (S m + k) with (m + S k) by lia. exact Hj.
  - exists (repeat (Worker m) w ++ Main :: sch), ts'. replace (m + S k) with (S m + k) by lia. splits; [|lia|].
    + rewrite run_app, H1. cbn [bind run step]. unfold main_step. cbn [at_ merged tasks]. rewrite En, H2. unfold quiet in Hqj. rewrite Hqj. cbn [bind futures_alive events_alive]. exact H9.
    + intros i Hi. rewrite H11 by lia. apply H8. lia.
Qed.
Lemma harmful_used array_room jobs : harmful array_room jobs -> exists schedule, run array_room jobs schedule start = None.
Proof.
  intros H. inversion H as [a x b Ha Hr Hx|a x b Hb Hr Hq Hx]; subst.
  - exists (Main :: repeat Main (length a) ++ [Main; Worker 0]). cbn [run step bind main_step at_ start]. rewrite run_app.
    rewrite (distribute _ a (x :: b) []); [|reflexivity|simpl; lia|exact Hr]. cbn [bind run step main_step at_ tasks].
    rewrite app_nil_l, map_length, nth_error_app2, Nat.sub_diag by lia. cbn [nth_error]. rewrite Hx. unfold worker_step. cbn [leave tasks].
    destruct a as [|j a]; [congruence|]. reflexivity.
  - set (jobs := a ++ x :: b) in *. set (ts := map (fun j => S (work j)) jobs).
    assert (Hfx : exists id, outcome x = Some id) by (unfold quiet in Hx; destruct (outcome x); [eauto|congruence]). destruct Hfx as [id Hid].
    assert (Hlj : length jobs = length a + S (length b)) by (unfold jobs; rewrite app_length; reflexivity).
    assert (Hlt : length ts = length jobs) by (unfold ts; apply map_length).
    assert (Hfa : firstn (length a) jobs = a) by (unfold jobs; rewrite firstn_app, Nat.sub_diag, firstn_all; simpl; apply app_nil_r).
    assert (Hnx : nth_error jobs (length a) = Some x) by (unfold jobs; rewrite nth_error_app2, Nat.sub_diag by lia; reflexivity).
    destruct (merge_quiet jobs x b 0 (length a) ts) as (sch & ts' & H1 & H2 & H3); simpl; try lia.
    { rewrite Hfa. exact Hq. }
    { constructor. }
    { rewrite Hfa. reflexivity. }
    simpl in H1, H3.
    assert (Hw : nth_error ts' (length a) = Some (S (work x))).
    { rewrite H3 by lia. unfold ts. erewrite map_nth_error by exact Hnx. reflexivity. }
    destruct (work_off true jobs (length a) (S (work x)) (mkstate Merging ts' (length a) true true) Hw eq_refl eq_refl) as (s1 & E1 & E2 & E3 & E4 & E5 & E6 & E7 & E8).
    destruct s1 as [p1 ts1 m1 f1 e1]. simpl in E2, E3, E4, E5, E6, E7, E8. subst p1 m1 f1 e1.
    exists (Main :: repeat Main (length jobs) ++ Main :: sch ++ repeat (Worker (length a)) (S (work x)) ++ [Main; Worker (S (length a))]).
    cbn [run step bind]. change (main_step true jobs start) with (mkstate Distributing [] 0 true true). rewrite run_app. rewrite (distribute jobs jobs [] []); [|simpl; rewrite app_nil_r; reflexivity|simpl; lia|exact Hr].
    rewrite app_nil_l. fold ts. cbn [bind run step]. unfold main_step at 1. cbn [at_ tasks]. rewrite Hlt.
    replace (nth_error jobs (length jobs)) with (@None job) by (symmetry; apply nth_error_None; lia). cbn [bind futures_alive events_alive].
    rewrite run_app, H1. cbn [bind]. rewrite run_app, E1. cbn [bind run step]. unfold main_step. cbn [at_ merged tasks]. rewrite Hnx, E2, Hid. cbn [bind].
    unfold worker_step. cbn [leave tasks].
    destruct (nth_error jobs (S (length a))) as [y|] eqn:Ey; [|apply nth_error_None in Ey; destruct b; [congruence|simpl in Hlj; lia]].
    rewrite E8, H3 by lia. unfold ts. erewrite map_nth_error by exact Ey. reflexivity.
Qed.
