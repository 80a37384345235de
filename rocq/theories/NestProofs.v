From Coq Require Import Permutation.
From Verif Require Import Base NestModel NestSpec.

(** ** lists *)
Lemma split_at {A} (l : list A) i x : nth_error l i = Some x -> exists a b, l = a ++ x :: b /\ length a = i.
Proof. intros H. apply nth_error_split in H as (a & b & H1 & H2). eauto. Qed.
Lemma aset_mid {A} (a b : list A) x y : aset (a ++ x :: b) (length a) y = Some (a ++ y :: b).
Proof. induction a as [|z a IH]; simpl; [reflexivity|]. rewrite IH. reflexivity. Qed.
Lemma nth_mid {A} (a b : list A) x k : nth_error (a ++ x :: b) k = if k =? length a then Some x else nth_error (a ++ b) (if k <? length a then k else k - 1).
Proof.
  revert k. induction a as [|z a IH]; intros [|k]; simpl; auto.
  - rewrite Nat.sub_0_r. reflexivity.
  - rewrite IH. destruct (Nat.eqb_spec k (length a)); [reflexivity|]. destruct (Nat.ltb_spec k (length a)).
    + destruct (Nat.ltb_spec (S k) (S (length a))); [reflexivity|lia].
    + destruct (Nat.ltb_spec (S k) (S (length a))); [lia|]. destruct k; [simpl; lia|]. simpl. rewrite ?Nat.sub_0_r. reflexivity.
Qed.
Lemma nth_change {A} (a b c : list A) x y k : k <> length a -> k < length (a ++ x :: b) -> nth_error (a ++ y :: b ++ c) k = nth_error (a ++ x :: b) k.
Proof.
  intros H1 H2. replace (a ++ y :: b ++ c) with ((a ++ y :: b) ++ c) by (rewrite <- app_assoc; reflexivity).
  rewrite nth_error_app1 by (rewrite app_length in *; simpl in *; lia). rewrite !nth_mid. apply Nat.eqb_neq in H1. rewrite H1. reflexivity.
Qed.
Lemma nth_here {A} (a b : list A) x : nth_error (a ++ x :: b) (length a) = Some x.
Proof. rewrite nth_mid, Nat.eqb_refl. reflexivity. Qed.
Lemma sum_app a b : sum (a ++ b) = sum a + sum b.
Proof. induction a; simpl; lia. Qed.
Lemma groups_list l : fold_right (fun j n => groups j + n) 0 l = all_groups l.
Proof. unfold all_groups. induction l as [|j l IH]; simpl; [reflexivity|]. rewrite IH. reflexivity. Qed.

(** ** the invariant *)
Definition held_of (o : option nat) : list nat := match o with Some i => [i] | None => [] end.
Definition held (s : state) : list nat := flat_map held_of (workers s).
Definition active (p : progress) : Prop := match p with Queued | Finished => False | _ => True end.
Definition pending (p : progress) : list nat := match p with Spawning _ made => made | Touching rest => rest | _ => [] end.
Definition has {A} (l : list A) : nat := match l with [] => 0 | _ => 1 end.
Definition weight (x : job * progress) : nat :=
  match snd x with
  | Queued => groups (fst x)
  | Spawning rest made => Nat.max (has rest) (has made) + all_groups rest
  | Touching rest => has rest
  | _ => 0
  end.
Record good (n : nat) (l : list job) (s : state) : Prop := {
  g_nodup : NoDup (held s ++ queue s);
  g_root : exists p, nth_error (futures s) 0 = Some (Group l, p) /\ p <> Queued;
  g_queue : forall i, In i (queue s) <-> exists j, nth_error (futures s) i = Some (j, Queued);
  g_held : forall i, In i (held s) <-> i <> 0 /\ exists j p, nth_error (futures s) i = Some (j, p) /\ active p;
  g_children : forall i j p, nth_error (futures s) i = Some (j, p) -> forall c, In c (pending p) -> i < c < length (futures s);
  g_weight : sum (map weight (futures s)) <= 1 + all_groups l;
  g_workers : length (workers s) = n
}.

Lemma held_repeat n : flat_map held_of (repeat None n) = [].
Proof. induction n; simpl; auto. Qed.
Lemma good_start n l : good n l (start n l).
Proof.
  constructor; simpl.
  - unfold held. simpl. rewrite held_repeat. constructor.
  - eexists. split; [reflexivity|discriminate].
  - intros [|[|i]]; simpl; split; try tauto; intros [j H]; try discriminate.
  - intros i. unfold held. simpl. rewrite held_repeat. split; [intros []|]. intros [Hi (j & p & H & _)]. destruct i as [|[|i]]; [congruence| |]; discriminate.
  - intros [|[|i]] j p H; simpl in H; try discriminate. injection H as <- <-. intros c [].
  - unfold weight. simpl. destruct l; simpl; lia.
  - apply repeat_length.
Qed.

Lemma nodup_cons_mid {A} (a b : list A) x : NoDup (a ++ x :: b) <-> NoDup (x :: a ++ b).
Proof. split; apply Permutation_NoDup; [symmetry|]; apply Permutation_middle. Qed.

Lemma nodup_left {A} (a b : list A) : NoDup (a ++ b) -> NoDup a.
Proof. induction a as [|x a IH]; simpl; intros H; [constructor|]. apply NoDup_cons_iff in H as [H1 H2]. constructor; [rewrite in_app_iff in H1; tauto|auto]. Qed.

(** a future changes, and perhaps another one is made *)
Lemma good_change n l s i j p p' new q' ws' a b :
  good n l s -> futures s = a ++ (j, p) :: b -> length a = i ->
  (new = [] \/ exists k, new = [(k, Queued)]) ->
  (i = 0 -> p' <> Queued) ->
  NoDup (flat_map held_of ws' ++ q') ->
  (forall k, k <> i -> In k q' <-> In k (queue s) \/ (new <> [] /\ k = length (futures s))) ->
  (In i q' <-> p' = Queued) ->
  (forall k, k <> i -> In k (flat_map held_of ws') <-> In k (held s)) ->
  (In i (flat_map held_of ws') <-> i <> 0 /\ active p') ->
  (forall c, In c (pending p') -> In c (pending p) \/ (new <> [] /\ c = length (futures s))) ->
  weight (j, p') + sum (map weight new) <= weight (j, p) ->
  length ws' = n ->
  good n l (mkstate (a ++ (j, p') :: b ++ new) q' ws').
Proof.
  intros G Hf Hl Hnew Hroot Hnd Hq Hqi Hh Hhi Hc Hw Hn.
  assert (Hlen : length (a ++ (j, p') :: b ++ new) = length (futures s) + length new) by (rewrite Hf, !app_length; simpl; rewrite app_length; lia).
  assert (Hfl : i < length (futures s)) by (rewrite Hf, app_length; simpl; lia).
  assert (Hi : nth_error (a ++ (j, p') :: b ++ new) i = Some (j, p')) by (subst i; apply nth_here).
  assert (Hk : forall k, k <> i -> k < length (futures s) -> nth_error (a ++ (j, p') :: b ++ new) k = nth_error (futures s) k)
    by (intros k H1 H2; rewrite Hf in *; subst i; apply nth_change; auto).
  assert (Hnw : forall k, length (futures s) <= k -> nth_error (a ++ (j, p') :: b ++ new) k = nth_error new (k - length (futures s))).
  { intros k H. replace (a ++ (j, p') :: b ++ new) with ((a ++ (j, p') :: b) ++ new) by (rewrite <- app_assoc; reflexivity).
    replace (length (futures s)) with (length (a ++ (j, p') :: b)) in * by (rewrite Hf, !app_length; reflexivity).
    apply nth_error_app2. exact H. }
  constructor; cbn [futures queue workers].
  - exact Hnd.
  - destruct (g_root _ _ _ G) as (p0 & H0 & Hp0). destruct (Nat.eq_dec i 0) as [->|Hne].
    + destruct a; [|discriminate]. simpl. rewrite Hf in H0. simpl in H0. injection H0 as -> _. eexists. split; [reflexivity|auto].
    + exists p0. rewrite Hk by lia. auto.
  - intros k. destruct (Nat.eq_dec k i) as [->|Hne].
    + rewrite Hi, Hqi. split; [intros ->; eauto|]. intros [j0 H]. congruence.
    + rewrite Hq by auto. rewrite (g_queue _ _ _ G). destruct (Nat.lt_ge_cases k (length (futures s))) as [Hlt|Hge].
      * rewrite Hk by auto. split; [intros [H|[_ H]]; [exact H|lia]|auto].
      * rewrite Hnw by auto. split.
        -- intros [[j0 H]|[H1 H2]]; [apply nth_error_lt in H; lia|]. destruct Hnew as [->|[k0 ->]]; [congruence|]. subst k. rewrite Nat.sub_diag. simpl. eauto.
        -- intros [j0 H]. right. destruct Hnew as [->|[k0 ->]]; [destruct (k - _); discriminate|]. split; [discriminate|].
           apply nth_error_lt in H. simpl in H. lia.
  - intros k. destruct (Nat.eq_dec k i) as [->|Hne].
    + unfold held. simpl. rewrite Hi, Hhi. split; [intros [H1 H2]; eauto|]. intros [H1 (j0 & p0 & H2 & H3)]. split; [auto|congruence].
    + unfold held. simpl. rewrite Hh by auto. rewrite (g_held _ _ _ G). destruct (Nat.lt_ge_cases k (length (futures s))) as [Hlt|Hge].
      * rewrite Hk by auto. reflexivity.
      * rewrite Hnw by auto. split; intros [H1 (j0 & p0 & H2 & H3)].
        -- apply nth_error_lt in H2; lia.
        -- destruct Hnew as [->|[k0 ->]]; [destruct (k - _); discriminate|]. destruct (k - _) as [|[|m]]; try discriminate. simpl in H2. injection H2 as <- <-. destruct H3.
  - intros k j0 p0 H c Hcc. rewrite Hlen. destruct (Nat.eq_dec k i) as [->|Hne].
    + rewrite Hi in H. injection H as <- <-. destruct (Hc _ Hcc) as [H|[H1 H2]].
      * assert (Hb := g_children _ _ _ G i j p). rewrite Hf in Hb at 1. subst i. rewrite nth_here in Hb. specialize (Hb eq_refl c H). lia.
      * destruct Hnew as [->|[k0 ->]]; [congruence|]. simpl. lia.
    + destruct (Nat.lt_ge_cases k (length (futures s))) as [Hlt|Hge].
      * rewrite Hk in H by auto. assert (Hb := g_children _ _ _ G k j0 p0 H c Hcc). lia.
      * rewrite Hnw in H by auto. destruct Hnew as [->|[k0 ->]]; [destruct (k - _); discriminate|].
        destruct (k - _) as [|[|m]]; try discriminate. simpl in H. injection H as <- <-. destruct Hcc.
  - assert (Hb := g_weight _ _ _ G). rewrite Hf in Hb. rewrite map_app, sum_app in Hb. simpl in Hb. rewrite map_app, sum_app. simpl. rewrite map_app, sum_app. lia.
  - exact Hn.
Qed.

Lemma sum_le_one {A} (l : list A) : has l <= 1. Proof. destruct l; simpl; lia. Qed.
Lemma groups_group m ms : groups (Group (m :: ms)) = 1 + all_groups (m :: ms).
Proof. rewrite <- groups_list. reflexivity. Qed.
Lemma begin_weight j : weight (j, begin j) <= groups j.
Proof. destruct j as [|[|m ms]]; unfold weight; cbn [fst snd begin]; try (cbv; lia). rewrite groups_group. simpl. lia. Qed.

Fixpoint cost (j : job) : nat := match j with Leaf => 2 | Group ms => fold_right (fun j n => cost j + 2 + n) 3 ms end.
Definition costs (l : list job) : nat := fold_right (fun j n => cost j + 2 + n) 0 l.
Lemma cost_group ms : cost (Group ms) = costs ms + 3.
Proof. simpl. unfold costs. induction ms; simpl; lia. Qed.
Definition measure1 (x : job * progress) : nat :=
  match snd x with
  | Queued => cost (fst x)
  | Playing => 1
  | Spawning rest made => costs rest + 2 + length made
  | Touching rest => 1 + length rest
  | Finished => 0
  end.
Definition measure (s : state) : nat := sum (map measure1 (futures s)).

(** what a step of evaluation does to an active future. [new]: the future that is made *)
Inductive moves (s : state) (i : nat) (j : job) : progress -> progress -> list (job * progress) -> Prop :=
| MPlay : moves s i j Playing Finished []
| MSpawn k rest made : moves s i j (Spawning (k :: rest) made) (Spawning rest (made ++ [length (futures s)])) [(k, Queued)]
| MSpawned made : moves s i j (Spawning [] made) (Touching made) []
| MTouch c rest : is_finished s c = true -> moves s i j (Touching (c :: rest)) (Touching rest) []
| MMerged : moves s i j (Touching []) Finished [].

Definition new_queue (s : state) (new : list (job * progress)) : list nat := queue s ++ match new with [] => [] | _ => [length (futures s)] end.
Lemma set_mid s a b j p p' : futures s = a ++ (j, p) :: b -> set_progress s (length a) p' = Some (mkstate (a ++ (j, p') :: b) (queue s) (workers s)).
Proof. intros H. unfold set_progress, aget. rewrite H, nth_here. cbn [bind fst]. rewrite aset_mid. reflexivity. Qed.
Lemma advance_cases s a b j p : futures s = a ++ (j, p) :: b -> active p ->
  (exists p' new, moves s (length a) j p p' new /\ advance (length a) s = Some (mkstate (a ++ (j, p') :: b ++ new) (new_queue s new) (workers s))) \/
  (advance (length a) s = Some s /\ exists c rest, p = Touching (c :: rest) /\ is_finished s c = false).
Proof.
  intros Hf Ha. assert (Hn : nth_error (futures s) (length a) = Some (j, p)) by (rewrite Hf; apply nth_here).
  unfold advance, aget. rewrite Hn. cbn [bind snd].
  destruct p as [| |[|k rest] made|[|c rest]|]; try destruct Ha.
  - left. exists Finished, []. split; [constructor|]. rewrite (set_mid _ _ _ _ _ _ Hf). unfold new_queue. rewrite !app_nil_r. reflexivity.
  - left. exists (Touching made), []. split; [constructor|]. rewrite (set_mid _ _ _ _ _ _ Hf). unfold new_queue. rewrite !app_nil_r. reflexivity.
  - left. exists (Spawning rest (made ++ [length (futures s)])), [(k, Queued)]. split; [constructor|].
    erewrite set_mid with (b := b ++ [(k, Queued)]); [|simpl; rewrite Hf, <- app_assoc; reflexivity]. reflexivity.
  - left. exists Finished, []. split; [constructor|]. rewrite (set_mid _ _ _ _ _ _ Hf). unfold new_queue. rewrite !app_nil_r. reflexivity.
  - destruct (is_finished s c) eqn:E.
    + left. exists (Touching rest), []. split; [constructor; exact E|]. rewrite (set_mid _ _ _ _ _ _ Hf). unfold new_queue. rewrite !app_nil_r. reflexivity.
    + right. eauto.
Qed.
Lemma moves_measure s i j p p' new : moves s i j p p' new -> measure1 (j, p') + sum (map measure1 new) < measure1 (j, p).
Proof. intros H. inversion H; subst; unfold measure1; simpl; rewrite ?app_length; simpl; lia. Qed.
Lemma has_snoc {A} (l : list A) x : has (l ++ [x]) = 1. Proof. destruct l; reflexivity. Qed.
Lemma all_groups_cons k l : all_groups (k :: l) = groups k + all_groups l. Proof. reflexivity. Qed.
Lemma moves_weight s i j p p' new : moves s i j p p' new -> weight (j, p') + sum (map weight new) <= weight (j, p).
Proof.
  intros H. inversion H; subst; unfold weight; cbn [fst snd map sum fold_right has]; rewrite ?has_snoc, ?all_groups_cons; try lia.
  - assert (Hb := sum_le_one rest). lia.
  - assert (Hb := sum_le_one rest). lia.
Qed.
Lemma moves_new s i j p p' new : moves s i j p p' new -> new = [] \/ exists k, new = [(k, Queued)].
Proof. intros H. inversion H; subst; eauto. Qed.
Lemma moves_pending s i j p p' new : moves s i j p p' new -> forall c, In c (pending p') -> In c (pending p) \/ (new <> [] /\ c = length (futures s)).
Proof.
  intros H. inversion H; subst; simpl; auto. intros c Hc. apply in_app_iff in Hc as [Hc|[Hc|[]]]; auto. right. split; [discriminate|auto].
Qed.
Lemma moves_to s i j p p' new : moves s i j p p' new -> p' = Finished \/ active p'.
Proof. intros H. inversion H; subst; simpl; auto. Qed.
Lemma moves_measured s a b j p p' new : futures s = a ++ (j, p) :: b -> moves s (length a) j p p' new ->
  forall q ws, measure (mkstate (a ++ (j, p') :: b ++ new) q ws) < measure s.
Proof.
  intros Hf Hm q ws. apply moves_measure in Hm. unfold measure. simpl. rewrite Hf, !map_app, !sum_app. simpl. rewrite map_app, sum_app. lia.
Qed.

Lemma fin_mid a b j p q ws : is_finished (mkstate (a ++ (j, p) :: b) q ws) (length a) = match p with Finished => true | _ => false end.
Proof. unfold is_finished. simpl. rewrite nth_here. reflexivity. Qed.

Lemma held_split s u h v : workers s = u ++ h :: v -> held s = flat_map held_of u ++ held_of h ++ flat_map held_of v.
Proof. intros H. unfold held. rewrite H, flat_map_app. simpl. reflexivity. Qed.

(** ** the steps *)
Definition blocked (s : state) (i : nat) : Prop := exists j c rest, nth_error (futures s) i = Some (j, Touching (c :: rest)) /\ is_finished s c = false.
Lemma new_queue_in s new k : In k (new_queue s new) <-> In k (queue s) \/ (new <> [] /\ k = length (futures s)).
Proof.
  unfold new_queue. rewrite in_app_iff. destruct new; simpl; split; intros [H|H]; auto.
  - destruct H.
  - destruct H as [H _]. congruence.
  - right. destruct H as [H|[]]. split; [discriminate|auto].
  - right. left. symmetry. apply H.
Qed.
Lemma good_lt n l s : good n l s -> forall i, In i (held s ++ queue s) -> i < length (futures s).
Proof.
  intros G i H. apply in_app_iff in H as [H|H].
  - apply (g_held _ _ _ G) in H as [_ (j & p & H & _)]. apply nth_error_lt in H. exact H.
  - apply (g_queue _ _ _ G) in H as [j H]. apply nth_error_lt in H. exact H.
Qed.
Lemma nodup_new_queue n l s new hs : good n l s -> (forall i, In i hs -> In i (held s)) -> NoDup (hs ++ queue s) -> NoDup (hs ++ new_queue s new).
Proof.
  intros G Hin H. unfold new_queue. rewrite app_assoc. destruct new; [rewrite app_nil_r; exact H|].
  apply nodup_cons_mid. rewrite app_nil_r. constructor; [|exact H]. intros Hc.
  apply in_app_iff in Hc as [Hc|Hc]; [apply Hin in Hc|];
    assert (Hb := good_lt _ _ _ G (length (futures s))); rewrite in_app_iff in Hb; specialize (Hb ltac:(auto)); lia.
Qed.

Lemma main_step n l s : good n l s -> exists s', step Main s = Some s' /\ good n l s' /\
  (measure s' < measure s \/ (s' = s /\ (returned s \/ blocked s 0))).
Proof.
  intros G. destruct (g_root _ _ _ G) as (p & H0 & Hp). simpl.
  destruct (split_at _ _ _ H0) as (a & b & Hf & Ha). destruct p as [| |rest made|rest|].
  1: congruence.
  4: { exists s. split; [unfold advance, aget; rewrite H0; reflexivity|]. split; [exact G|]. right. split; [reflexivity|]. left.
       unfold returned, is_finished. rewrite H0. reflexivity. }
  all: destruct (advance_cases s a b _ _ Hf I) as [(p' & new & Hm & Hs)|(Hs & c & rest' & Hr & Hc)]; rewrite Ha in *;
    [eexists; split; [exact Hs|]; split; [|left; rewrite <- Ha in Hm; exact (moves_measured _ _ _ _ _ _ _ Hf Hm _ _)]|
     exists s; split; [exact Hs|]; split; [exact G|]; right; split; [reflexivity|]; right; try discriminate Hr; injection Hr as ->; red; eauto 6].
  all: eapply good_change; eauto using moves_new, moves_pending, moves_weight, (g_workers _ _ _ G).
  all: try (intros _; destruct (moves_to _ _ _ _ _ _ Hm) as [->|H]; [discriminate|intros ->; exact H]).
  all: try (eapply nodup_new_queue; [exact G|auto|exact (g_nodup _ _ _ G)]).
  all: try (intros k _; apply new_queue_in).
  all: try reflexivity.
  all: try (rewrite new_queue_in; split; [intros [H|[_ H]]; [apply (g_queue _ _ _ G) in H as [j0 H]; congruence|apply nth_error_lt in H0; lia]|
         intros ->; destruct (moves_to _ _ _ _ _ _ Hm) as [H|H]; [discriminate|destruct H]]).
  all: fold (held s); rewrite (g_held _ _ _ G); split; [intros [H _]; congruence|intros [H _]; congruence].
Qed.

Lemma worker_step_ok n l s w : good n l s -> w < n -> exists s', step (Worker w) s = Some s' /\ good n l s' /\
  (measure s' < measure s \/
   (s' = s /\ ((nth_error (workers s) w = Some None /\ queue s = []) \/ exists i, nth_error (workers s) w = Some (Some i) /\ blocked s i))).
Proof.
  intros G Hw. destruct (nth_error (workers s) w) as [h|] eqn:Ew.
  2: { apply nth_error_None in Ew. rewrite (g_workers _ _ _ G) in Ew. lia. }
  destruct (split_at _ _ _ Ew) as (u & v & Hu & Hlu).
  assert (Hws := g_workers _ _ _ G). assert (Hh := held_split _ _ _ _ Hu). assert (Hnd := g_nodup _ _ _ G).
  simpl. unfold worker_step, aget. rewrite Ew. cbn [bind].
  destruct h as [i|].
  - (* evaluating *)
    assert (Hin : In i (held s)) by (rewrite Hh; simpl; rewrite in_app_iff; simpl; auto).
    destruct (proj1 (g_held _ _ _ G i) Hin) as [Hi0 (j & p & Hn & Hp)].
    destruct (split_at _ _ _ Hn) as (a & b & Hf & Ha).
    assert (Hiq : ~ In i (queue s)). { intros H. apply (g_queue _ _ _ G) in H as [j0 H]. rewrite Hn in H. injection H as _ ->. exact Hp. }
    assert (Hfin : forall x y q ws, is_finished (mkstate (a ++ (j, x) :: y) q ws) i = match x with Finished => true | _ => false end) by (intros; rewrite <- Ha; apply fin_mid).
    destruct (advance_cases s a b _ _ Hf Hp) as [(p' & new & Hm & Hs)|(Hs & c & rest' & Hr & Hc)]; rewrite Ha in Hs; try rewrite Ha in Hm; rewrite Hs; cbn [bind].
    2: { assert (Hnf : is_finished s i = false) by (unfold is_finished; rewrite Hn, Hr; reflexivity). rewrite Hnf. exists s. split; [reflexivity|]. split; [exact G|].
         right. split; [reflexivity|]. right. exists i. split; [reflexivity|]. red. subst p. eauto 6. }
    rewrite Hfin.
    assert (Hms : forall q ws, measure (mkstate (a ++ (j, p') :: b ++ new) q ws) < measure s) by (rewrite <- Ha in Hm; exact (moves_measured _ _ _ _ _ _ _ Hf Hm)).
    assert (Hil : i < length (futures s)) by (apply nth_error_lt in Hn; exact Hn).
    destruct (moves_to _ _ _ _ _ _ Hm) as [->|Hap].
    + (* finished *)
      cbn [workers]. rewrite Hu, <- Hlu, aset_mid. cbn [bind futures queue]. eexists. split; [reflexivity|]. split; [|left; apply Hms].
      assert (Hnil : new = []) by (inversion Hm; reflexivity).
      assert (Hnd' : NoDup (flat_map held_of (u ++ None :: v) ++ queue s) /\ ~ In i (flat_map held_of (u ++ None :: v))).
      { rewrite Hh in Hnd. rewrite flat_map_app. simpl in *. rewrite <- app_assoc in Hnd. simpl in Hnd. apply nodup_cons_mid in Hnd.
        apply NoDup_cons_iff in Hnd as [Hni Hnd]. rewrite app_assoc in Hnd, Hni. split; [exact Hnd|]. intros H. apply Hni. apply in_app_iff. auto. }
      destruct Hnd' as [Hnd1 Hnd2].
      eapply good_change; eauto using moves_new, moves_pending, moves_weight.
      * unfold new_queue. subst new. rewrite app_nil_r. exact Hnd1.
      * intros k _. apply new_queue_in.
      * rewrite new_queue_in. split; [|discriminate]. intros [H|[_ H]]; [tauto|lia].
      * intros k Hk. rewrite Hh, flat_map_app. simpl. rewrite !in_app_iff. simpl. split; [intros [H|H]; auto|intros [H|[H|H]]; auto]. congruence.
      * split; [tauto|]. intros [_ []].
      * rewrite <- Hws, Hu, !app_length. reflexivity.
    + (* goes on *)
      assert (Hnf : match p' with Finished => true | _ => false end = false) by (destruct p'; try reflexivity; destruct Hap). rewrite Hnf.
      eexists. split; [reflexivity|]. split; [|left; apply Hms].
      eapply good_change; eauto using moves_new, moves_pending, moves_weight.
      * eapply nodup_new_queue; [exact G|auto|exact Hnd].
      * intros k _. apply new_queue_in.
      * rewrite new_queue_in. split; [|intros ->; destruct Hap]. intros [H|[_ H]]; [tauto|lia].
      * intros k _. reflexivity.
      * fold (held s). tauto.
  - (* idle *)
    destruct (queue s) as [|i q] eqn:Eq.
    { exists s. split; [reflexivity|]. split; [exact G|]. right. auto. }
    assert (Hin : In i (queue s)) by (rewrite Eq; simpl; auto).
    destruct (proj1 (g_queue _ _ _ G i) Hin) as [j Hn]. rewrite Hn. cbn [bind fst].
    destruct (split_at _ _ _ Hn) as (a & b & Hf & Ha).
    rewrite Hu, <- Hlu, aset_mid. cbn [bind]. rewrite <- Ha.
    erewrite set_mid; [|simpl; exact Hf]. cbn [queue workers]. eexists. split; [reflexivity|]. rewrite Ha.
    assert (Hi0 : i <> 0). { destruct (g_root _ _ _ G) as (p0 & H0 & Hp0). intros ->. congruence. }
    simpl in Hh. rewrite Hh in Hnd.
    assert (Hperm : Permutation (flat_map held_of (u ++ Some i :: v) ++ q) ((flat_map held_of u ++ flat_map held_of v) ++ i :: q)).
    { rewrite flat_map_app. simpl. rewrite <- !app_assoc. apply Permutation_app_head. simpl. apply Permutation_middle. }
    assert (Hlt : measure1 (j, begin j) < measure1 (j, Queued)). { destruct j as [|ms]; unfold measure1; cbn [fst snd begin]; [simpl; lia|]. rewrite cost_group. simpl. lia. }
    split.
    + replace (a ++ (j, begin j) :: b) with (a ++ (j, begin j) :: b ++ []) by (rewrite app_nil_r; reflexivity).
      eapply good_change; eauto.
      * eapply Permutation_NoDup; [symmetry; exact Hperm|exact Hnd].
      * intros k Hk. rewrite Eq. simpl. split; [auto|]. intros [[H|H]|[H _]]; [congruence|auto|congruence].
      * assert (Hni : ~ In i q). { apply nodup_cons_mid in Hnd. apply NoDup_cons_iff in Hnd as [Hni _]. intros H. apply Hni. apply in_app_iff. auto. }
        split; [tauto|]. destruct j; discriminate.
      * intros k Hk. rewrite Hh, flat_map_app. simpl. rewrite !in_app_iff. simpl. split; [intros [H|[H|H]]; auto; congruence|intros [H|H]; auto].
      * rewrite flat_map_app. simpl. rewrite in_app_iff. simpl. split; [intros _; split; [exact Hi0|]; destruct j; exact I|auto].
      * destruct j; intros c [].
      * simpl. assert (Hb := begin_weight j). unfold weight at 2. simpl. lia.
      * rewrite <- Hws, Hu, !app_length. reflexivity.
    + left. unfold measure. cbn [futures]. rewrite Hf, !map_app, !sum_app. simpl. lia.
Qed.

Lemma step_ok n l s t : good n l s -> thread_of n t -> exists s', step t s = Some s' /\ good n l s' /\ (measure s' < measure s \/ s' = s).
Proof.
  intros G Ht. destruct t as [|w].
  - destruct (main_step _ _ _ G) as (s' & H1 & H2 & H3). exists s'. splits; auto. tauto.
  - destruct (worker_step_ok _ _ _ w G Ht) as (s' & H1 & H2 & H3). exists s'. splits; auto. tauto.
Qed.

(** ** enough threads: some step makes progress *)
Fixpoint positions (g : job * progress -> nat) (b : nat) (f : list (job * progress)) : list nat :=
  match f with [] => [] | x :: f => (if g x =? 0 then [] else [b]) ++ positions g (S b) f end.
Lemma positions_length g f : forall b, length (positions g b f) <= sum (map g f).
Proof. induction f as [|x f IH]; intros b; simpl; [lia|]. specialize (IH (S b)). unfold sum in *. destruct (Nat.eqb_spec (g x) 0); simpl; lia. Qed.
Lemma positions_in g f : forall b k x, nth_error f k = Some x -> g x <> 0 -> In (b + k) (positions g b f).
Proof.
  induction f as [|y f IH]; intros b [|k] x H Hg; simpl in *; try discriminate.
  - injection H as ->. apply Nat.eqb_neq in Hg. rewrite Hg. simpl. left. lia.
  - apply in_app_iff. right. replace (b + S k) with (S b + k) by lia. eauto.
Qed.
Lemma held_full ws : (forall w, w < length ws -> exists i, nth_error ws w = Some (Some i)) -> length (flat_map held_of ws) = length ws.
Proof.
  induction ws as [|h ws IH]; intros H; simpl; [reflexivity|]. destruct (H 0 ltac:(simpl; lia)) as [i Hi]. simpl in Hi. injection Hi as ->. simpl.
  rewrite IH; [reflexivity|]. intros w Hw. apply (H (S w)). simpl. lia.
Qed.
Lemma in_held s i : In i (held s) <-> exists w, nth_error (workers s) w = Some (Some i).
Proof.
  unfold held. rewrite in_flat_map. split.
  - intros ([k|] & H1 & H2); [|destruct H2]. destruct H2 as [->|[]]. apply In_nth_error in H1. exact H1.
  - intros [w H]. exists (Some i). split; [eapply nth_error_In; eassumption|simpl; auto].
Qed.
Lemma forall_or n (A : Prop) (P : nat -> Prop) : (forall w, w < n -> A \/ P w) -> A \/ forall w, w < n -> P w.
Proof.
  induction n as [|n IH]; intros H; [right; lia|]. destruct IH as [HA|HP]; [intros w Hw; apply H; lia|auto|].
  destruct (H n ltac:(lia)) as [HA|Hn]; [auto|]. right. intros w Hw. destruct (Nat.eq_dec w n) as [->|]; [auto|apply HP; lia].
Qed.
Lemma exists_or n (P Q : nat -> Prop) : (forall w, w < n -> P w \/ Q w) -> (exists w, w < n /\ P w) \/ forall w, w < n -> Q w.
Proof. intros H. apply forall_or. intros w Hw. destruct (H w Hw); eauto. Qed.
Lemma blocked_weight s i : blocked s i -> exists x, nth_error (futures s) i = Some x /\ weight x <> 0.
Proof. intros (j & c & rest & H & _). eexists. split; [exact H|]. unfold weight. simpl. lia. Qed.

Lemma progress_possible n l s : good n l s -> all_groups l < n -> ~ returned s ->
  exists t s', thread_of n t /\ step t s = Some s' /\ good n l s' /\ measure s' < measure s.
Proof.
  intros G Hn Hr. destruct (main_step _ _ _ G) as (s1 & H1 & H2 & [H3|[-> [H3|H0]]]).
  { exists Main, s1. splits; simpl; auto. }
  { contradiction. }
  assert (Hall : (exists t s', thread_of n t /\ step t s = Some s' /\ good n l s' /\ measure s' < measure s) \/
    forall w, w < n -> (nth_error (workers s) w = Some None /\ queue s = []) \/ exists i, nth_error (workers s) w = Some (Some i) /\ blocked s i).
  { apply forall_or. intros w Hw. destruct (worker_step_ok _ _ _ w G Hw) as (s' & E1 & E2 & [E3|[-> E3]]); [left; exists (Worker w), s'; auto|right; exact E3]. }
  destruct Hall as [H|Hall]; [exact H|exfalso].
  destruct (exists_or n _ _ Hall) as [(w & _ & _ & Hq)|Hbusy].
  - (* an idle thread: nothing is queued *)
    assert (Hno : forall d i, length (futures s) - i <= d -> ~ blocked s i); [|exact (Hno (length (futures s) - 0) 0 (le_n _) H0)].
    induction d as [|d IH]; intros i Hd (j & c & rest & Hi & Hc).
    + apply nth_error_lt in Hi. lia.
    + assert (Hb := g_children _ _ _ G i j _ Hi c ltac:(simpl; auto)).
      destruct (nth_error (futures s) c) as [[jc pc]|] eqn:Ec; [|apply nth_error_None in Ec; lia].
      assert (Hin : In c (held s)).
      { apply (g_held _ _ _ G). split; [lia|]. exists jc, pc. split; [exact Ec|]. destruct pc; simpl; auto.
        - assert (Hx : In c (queue s)) by (apply (g_queue _ _ _ G); eauto). rewrite Hq in Hx. exact Hx.
        - unfold is_finished in Hc. rewrite Ec in Hc. discriminate. }
      apply in_held in Hin as [w' Hw']. assert (Hl := nth_error_lt _ _ _ Hw'). rewrite (g_workers _ _ _ G) in Hl.
      destruct (Hall w' Hl) as [[H _]|(i' & H & Hbl)]; [congruence|]. rewrite Hw' in H. injection H as <-. apply (IH c); [lia|exact Hbl].
  - (* every thread waits *)
    assert (Hlen : length (held s) = n).
    { unfold held. rewrite held_full; [exact (g_workers _ _ _ G)|]. rewrite (g_workers _ _ _ G). intros w Hw. destruct (Hbusy w Hw) as (i & H & _). eauto. }
    assert (Hnd : NoDup (0 :: held s)).
    { constructor; [intros H; apply (g_held _ _ _ G) in H as [H _]; congruence|]. assert (H := g_nodup _ _ _ G). exact (nodup_left _ _ H). }
    assert (Hinc : incl (0 :: held s) (positions weight 0 (futures s))).
    { intros i Hi. assert (Hb : blocked s i).
      { destruct Hi as [<-|Hi]; [exact H0|]. apply in_held in Hi as [w Hw]. assert (Hl := nth_error_lt _ _ _ Hw). rewrite (g_workers _ _ _ G) in Hl.
        destruct (Hbusy w Hl) as (i' & H & Hbl). congruence. }
      apply blocked_weight in Hb as (x & Hx & Hw). apply (positions_in weight _ 0 i x Hx Hw). }
    assert (Hle := NoDup_incl_length Hnd Hinc). simpl in Hle. assert (Hp := positions_length weight (futures s) 0). assert (Hw := g_weight _ _ _ G). lia.
Qed.

Lemma run_app a b s : run (a ++ b) s = (s' <- run a s ;; run b s').
Proof. revert s. induction a as [|t a IH]; intros s; simpl; [reflexivity|]. destruct (step t s) as [s'|]; simpl; [apply IH|reflexivity]. Qed.
Lemma run_good n l schedule : Forall (thread_of n) schedule -> forall s, good n l s -> exists s', run schedule s = Some s' /\ good n l s'.
Proof.
  induction 1 as [|t schedule Ht _ IH]; intros s G; simpl; [eauto|].
  destruct (step_ok _ _ _ t G Ht) as (s' & H1 & H2 & _). rewrite H1. simpl. apply IH. exact H2.
Qed.
Lemma returned_dec s : returned s \/ ~ returned s.
Proof. unfold returned. destruct (is_finished s 0); auto. Qed.
Lemma can_return n l : all_groups l < n -> forall m s, measure s <= m -> good n l s ->
  exists schedule s', Forall (thread_of n) schedule /\ run schedule s = Some s' /\ returned s'.
Proof.
  intros Hn. induction m as [|m IH]; intros s Hm G; (destruct (returned_dec s) as [Hr|Hr]; [exists [], s; splits; auto|]);
    destruct (progress_possible _ _ _ G Hn Hr) as (t & s' & Ht & Hs & G' & Hlt); [lia|].
  destruct (IH s' ltac:(lia) G') as (sch & s2 & H1 & H2 & H3). exists (t :: sch), s2. splits; auto. simpl. rewrite Hs. exact H2.
Qed.

Lemma prefix_snoc f k s : run (prefix f (S k)) s = (s' <- run (prefix f k) s ;; step (f k) s').
Proof.
  unfold prefix. rewrite seq_S, map_app, run_app. destruct (run (map f (seq 0 k)) s) as [s'|]; simpl; [|reflexivity]. destruct (step (f k) s'); reflexivity.
Qed.
Lemma wait_for n l f s0 : (forall k, thread_of n (f k)) -> forall d k s, run (prefix f k) s0 = Some s -> good n l s ->
  run (prefix f (k + d)) s0 = Some s \/ exists k' s', run (prefix f k') s0 = Some s' /\ good n l s' /\ measure s' < measure s.
Proof.
  intros Ht. induction d as [|d IH]; intros k s Hs G; [rewrite Nat.add_0_r; auto|].
  destruct (IH k s Hs G) as [H|H]; [|auto]. destruct (step_ok _ _ _ (f (k + d)) G (Ht _)) as (s' & E1 & E2 & [E3| ->]).
  - right. exists (S (k + d)), s'. rewrite prefix_snoc, H. simpl. auto.
  - left. replace (k + S d) with (S (k + d)) by lia. rewrite prefix_snoc, H. simpl. exact E1.
Qed.
Lemma fair_returns_from n l f s0 : all_groups l < n -> fair n f -> forall m k s, run (prefix f k) s0 = Some s -> good n l s -> measure s <= m ->
  exists k' s', run (prefix f k') s0 = Some s' /\ returned s'.
Proof.
  intros Hn [Ht Hf]. induction m as [|m IH]; intros k s Hs G Hm; (destruct (returned_dec s) as [Hr|Hr]; [eauto|]);
    destruct (progress_possible _ _ _ G Hn Hr) as (t & s' & Htt & Hst & G' & Hlt); [lia|].
  destruct (Hf t Htt k) as (k' & Hk & Hfk). replace k' with (k + (k' - k)) in Hfk by lia.
  destruct (wait_for n l f s0 Ht (k' - k) k s Hs G) as [H|(k2 & s2 & H1 & H2 & H3)].
  - apply (IH (S (k + (k' - k))) s'); [|exact G'|lia]. rewrite prefix_snoc, H. simpl. rewrite Hfk. exact Hst.
  - apply (IH k2 s2); [exact H1|exact H2|lia].
Qed.
Lemma nested_returns n l : all_groups l < n ->
  (forall schedule, Forall (thread_of n) schedule -> exists s schedule' s',
     run schedule (start n l) = Some s /\ Forall (thread_of n) schedule' /\ run schedule' s = Some s' /\ returned s') /\
  (forall schedule, fair n schedule -> exists k s, run (prefix schedule k) (start n l) = Some s /\ returned s).
Proof.
  intros Hn. split.
  - intros sch Hs. destruct (run_good n l sch Hs _ (good_start n l)) as (s & H1 & H2). destruct (can_return n l Hn _ s (le_n _) H2) as (sch' & s' & H3 & H4 & H5).
    exists s, sch', s'. auto.
  - intros f Hf. apply (fair_returns_from n l f _ Hn Hf (measure (start n l)) 0 (start n l)); [reflexivity|apply good_start|lia].
Qed.

(** ** too few threads: a schedule after which every thread waits for ever *)
Definition doomed (s : state) (c : nat) : Prop := In c (held s) \/ In c (queue s).
Definition hopeless (s : state) (p : progress) : Prop :=
  match p with
  | Spawning rest made => rest <> [] \/ exists c, In c made /\ doomed s c
  | Touching rest => exists c, In c rest /\ doomed s c
  | _ => False
  end.
Record dead (n : nat) (l : list job) (s : state) : Prop := {
  d_good : good n l s;
  d_busy : forall w, w < n -> exists i, nth_error (workers s) w = Some (Some i);
  d_hopeless : forall i j p, i = 0 \/ In i (held s) -> nth_error (futures s) i = Some (j, p) -> hopeless s p
}.
Lemma doomed_unfinished n l s c : good n l s -> doomed s c -> is_finished s c = false.
Proof.
  intros G [H|H]; unfold is_finished.
  - apply (g_held _ _ _ G) in H as [_ (j & p & H & Hp)]. rewrite H. destruct p; auto. destruct Hp.
  - apply (g_queue _ _ _ G) in H as [j H]. rewrite H. reflexivity.
Qed.
Lemma hopeless_moves n l s i j p p' new : good n l s -> moves s i j p p' new -> hopeless s p ->
  forall s', workers s' = workers s -> queue s' = new_queue s new -> hopeless s' p' /\ p' <> Finished.
Proof.
  intros G Hm Hh s' Hw Hq.
  assert (Hmono : forall c, doomed s c -> doomed s' c).
  { intros c [H|H]; [left; unfold held; rewrite Hw; exact H|right; rewrite Hq; apply new_queue_in; auto]. }
  inversion Hm; subst; simpl in *; try tauto.
  - split; [|discriminate]. right. exists (length (futures s)). split; [apply in_app_iff; simpl; auto|].
    right. rewrite Hq. apply new_queue_in. right. split; [discriminate|reflexivity].
  - split; [|discriminate]. destruct Hh as [H|(c & H1 & H2)]; [congruence|eauto].
  - split; [|discriminate]. destruct Hh as (c' & [<-|H1] & H2); [|eauto].
    rewrite (doomed_unfinished _ _ _ _ G H2) in H. discriminate.
  - destruct Hh as (c & [] & _).
Qed.
Lemma hopeless_active s p : hopeless s p -> active p.
Proof. destruct p; simpl; auto. Qed.

Lemma dead_advance n l s i s' : dead n l s -> i = 0 \/ In i (held s) -> advance i s = Some s' -> good n l s' -> dead n l s' /\ is_finished s' i = false.
Proof.
  intros D Hi Hs G'. assert (G := d_good _ _ _ D).
  assert (Hx : exists j p, nth_error (futures s) i = Some (j, p)).
  { destruct Hi as [->|Hi]; [destruct (g_root _ _ _ G) as (p & H & _); eauto|]. apply (g_held _ _ _ G) in Hi as [_ (j & p & H & _)]. eauto. }
  destruct Hx as (j & p & Hn). assert (Hh := d_hopeless _ _ _ D i j p Hi Hn).
  destruct (split_at _ _ _ Hn) as (a & b & Hf & Ha).
  destruct (advance_cases s a b j p Hf (hopeless_active _ _ Hh)) as [(p' & new & Hm & E)|(E & c & rest & Hr & Hc)]; rewrite Ha in E; rewrite Hs in E; injection E as ->.
  2: { split; [exact D|]. unfold is_finished. rewrite Hn, Hr. reflexivity. }
  set (s' := mkstate (a ++ (j, p') :: b ++ new) (new_queue s new) (workers s)) in *.
  destruct (hopeless_moves _ _ _ _ _ _ _ _ G Hm Hh s' eq_refl eq_refl) as [Hh' Hnf].
  split.
  - constructor; [exact G'|exact (d_busy _ _ _ D)|]. intros k jk pk Hk Hnk.
    destruct (Nat.eq_dec k i) as [->|Hne].
    + cbn [futures s'] in Hnk. rewrite <- Ha, nth_here in Hnk. injection Hnk as <- <-. exact Hh'.
    + assert (Hlt : k < length (futures s)).
      { destruct Hk as [->|Hk]; [apply nth_error_lt in Hn; lia|]. apply (good_lt _ _ _ G). apply in_app_iff. left. exact Hk. }
      cbn [futures s'] in Hnk. rewrite Hf in Hlt. rewrite nth_change with (x := (j, p)) in Hnk; [|lia|exact Hlt]. rewrite <- Hf in Hnk.
      assert (Hhk := d_hopeless _ _ _ D k jk pk Hk Hnk).
      assert (Hmono : forall c, doomed s c -> doomed s' c).
      { intros c [H|H]; [left; exact H|right; apply new_queue_in; auto]. }
      destruct pk; simpl in *; auto.
      * destruct Hhk as [H|(c & H1 & H2)]; eauto.
      * destruct Hhk as (c & H1 & H2); eauto.
  - unfold is_finished. cbn [futures s']. rewrite <- Ha, nth_here. destruct p'; auto; congruence.
Qed.
Lemma dead_step n l s t s' : dead n l s -> step t s = Some s' -> dead n l s'.
Proof.
  intros D Hs. assert (G := d_good _ _ _ D). destruct t as [|w].
  - destruct (main_step _ _ _ G) as (s1 & H1 & H2 & _). rewrite Hs in H1. injection H1 as <-.
    exact (proj1 (dead_advance n l s 0 s' D (or_introl eq_refl) Hs H2)).
  - destruct (nth_error (workers s) w) as [h|] eqn:Ew; [|simpl in Hs; unfold worker_step, aget in Hs; rewrite Ew in Hs; discriminate].
    assert (Hw := nth_error_lt _ _ _ Ew). rewrite (g_workers _ _ _ G) in Hw.
    destruct (d_busy _ _ _ D w Hw) as [i Hi]. rewrite Ew in Hi. injection Hi as ->.
    assert (Hin : In i (held s)) by (apply in_held; eauto).
    destruct (worker_step_ok _ _ _ w G Hw) as (s1 & H1 & H2 & _). rewrite Hs in H1. injection H1 as <-.
    assert (Hs0 := Hs). simpl in Hs. unfold worker_step, aget in Hs. rewrite Ew in Hs. cbn [bind] in Hs.
    destruct (advance i s) as [s1|] eqn:Ea; [|discriminate]. cbn [bind] in Hs.
    assert (Hx : exists j p, nth_error (futures s) i = Some (j, p)) by (apply (g_held _ _ _ G) in Hin as [_ (j & p & H & _)]; eauto).
    destruct Hx as (j & p & Hn). assert (Hh := d_hopeless _ _ _ D i j p (or_intror Hin) Hn).
    assert (Hf1 : is_finished s1 i = false).
    { destruct (split_at _ _ _ Hn) as (a & b & Hf & Ha).
      destruct (advance_cases s a b j p Hf (hopeless_active _ _ Hh)) as [(p' & new & Hm & E)|(E & c & rest & Hr & Hc)]; rewrite Ha in E; rewrite Ea in E; injection E as ->.
      - destruct (hopeless_moves _ _ _ _ _ _ _ _ G Hm Hh (mkstate (a ++ (j, p') :: b ++ new) (new_queue s new) (workers s)) eq_refl eq_refl) as [_ Hnf].
        rewrite <- Ha, fin_mid. destruct p'; auto; congruence.
      - unfold is_finished. rewrite Hn, Hr. reflexivity. }
    rewrite Hf1 in Hs. injection Hs as ->. exact (proj1 (dead_advance n l s i s' D (or_intror Hin) Ea H2)).
Qed.
Lemma dead_forever n l schedule : forall s s', dead n l s -> run schedule s = Some s' -> ~ returned s'.
Proof.
  induction schedule as [|t sch IH]; intros s s' D H.
  - injection H as <-. assert (G := d_good _ _ _ D). destruct (g_root _ _ _ G) as (p & H0 & _). assert (Hh := d_hopeless _ _ _ D 0 _ _ (or_introl eq_refl) H0).
    unfold returned, is_finished. rewrite H0. destruct p; simpl in Hh; intuition discriminate.
  - simpl in H. destruct (step t s) as [s1|] eqn:E; [|discriminate]. simpl in H. exact (IH s1 s' (dead_step _ _ _ _ _ D E) H).
Qed.

Lemma total_mid {A} (g : A -> nat) a x b : sum (map g (a ++ x :: b)) = sum (map g a) + (g x + sum (map g b)).
Proof. rewrite map_app, sum_app. reflexivity. Qed.
Definition left_over (x : job * progress) : nat :=
  match snd x with Queued => groups (fst x) | Spawning rest _ => all_groups rest | _ => 0 end.
Definition waits (s : state) (c : nat) : Prop := In c (held s) \/ exists m ms, nth_error (futures s) c = Some (Group (m :: ms), Queued).
Record closing (n : nat) (l : list job) (k : nat) (s : state) : Prop := {
  c_good : good n l s;
  c_workers : exists hs, workers s = map Some hs ++ repeat None (n - k) /\ length hs = k;
  c_spawning : forall i, i = 0 \/ In i (held s) -> exists j rest made,
    nth_error (futures s) i = Some (j, Spawning rest made) /\ (rest <> [] \/ exists c, In c made /\ waits s c);
  c_left : sum (map left_over (futures s)) + k = all_groups l
}.
Lemma closing_start n l : l <> [] -> closing n l 0 (start n l).
Proof.
  intros Hl. constructor.
  - apply good_start.
  - exists []. split; [simpl; rewrite Nat.sub_0_r; reflexivity|reflexivity].
  - intros i [->|H].
    + exists (Group l), l, []. split; [reflexivity|auto].
    + unfold held in H. simpl in H. rewrite held_repeat in H. destruct H.
  - simpl. unfold left_over. simpl. lia.
Qed.
Lemma held_map hs m : flat_map held_of (map Some hs ++ repeat None m) = hs.
Proof. rewrite flat_map_app, held_repeat, app_nil_r. induction hs; simpl; congruence. Qed.
Lemma closing_dead n l s : closing n l n s -> dead n l s.
Proof.
  intros C. assert (G := c_good _ _ _ _ C). constructor; [exact G| |].
  - intros w Hw. destruct (c_workers _ _ _ _ C) as (hs & H & Hl). rewrite H, Nat.sub_diag. simpl. rewrite app_nil_r.
    destruct (nth_error hs w) as [i|] eqn:E; [exists i; apply map_nth_error; exact E|]. apply nth_error_None in E. lia.
  - intros i j p Hi Hn. destruct (c_spawning _ _ _ _ C i Hi) as (j' & rest & made & H & Hh). rewrite Hn in H. injection H as <- ->. simpl.
    destruct Hh as [Hh|(c & H1 & [H2|(m & ms & H2)])]; [auto|right; exists c; split; [exact H1|left; exact H2]|].
    right. exists c. split; [exact H1|]. right. apply (g_queue _ _ _ G). eauto.
Qed.
Lemma groups_zero j : groups j = 0 -> j = Leaf \/ j = Group [].
Proof. destruct j as [|[|m ms]]; auto. rewrite groups_group. lia. Qed.
Lemma groups_pos j : groups j <> 0 -> exists m ms, j = Group (m :: ms).
Proof. destruct j as [|[|m ms]]; simpl; [congruence|congruence|eauto]. Qed.
Lemma worker_advance s u v w i a b j p p' : workers s = u ++ Some i :: v -> length u = w -> length a = i -> futures s = a ++ (j, p) :: b ->
  advance i s = Some (mkstate (a ++ (j, p') :: b) (queue s) (workers s)) ->
  worker_step w s = Some (mkstate (a ++ (j, p') :: b) (queue s) (match p' with Finished => u ++ None :: v | _ => workers s end)).
Proof.
  intros Hw Hu Ha Hf H. unfold worker_step, aget. rewrite Hw, <- Hu, nth_here. cbn [bind]. rewrite H. cbn [bind]. rewrite <- Ha, fin_mid.
  cbn [workers]. rewrite ?Hw. destruct p'; try (rewrite ?Hu, ?Ha, ?Hw; reflexivity). rewrite aset_mid. reflexivity.
Qed.
Lemma advance_mid s i a b j p : length a = i -> futures s = a ++ (j, p) :: b ->
  advance i s = match p with
    | Playing => Some (mkstate (a ++ (j, Finished) :: b) (queue s) (workers s))
    | Spawning [] made => Some (mkstate (a ++ (j, Touching made) :: b) (queue s) (workers s))
    | Touching [] => Some (mkstate (a ++ (j, Finished) :: b) (queue s) (workers s))
    | _ => advance i s
    end.
Proof.
  intros Ha Hf. assert (Hn : nth_error (futures s) i = Some (j, p)) by (rewrite Hf, <- Ha; apply nth_here).
  destruct p as [| |[|? ?] ?|[|? ?]|]; try reflexivity; unfold advance, aget; rewrite Hn; cbn [bind snd]; rewrite <- Ha; eapply set_mid; exact Hf.
Qed.
(** a queued future that is not a group with members is evaluated by an idle thread *)
Lemma worker_clears s u v i q j a b : workers s = u ++ None :: v -> queue s = i :: q -> futures s = a ++ (j, Queued) :: b -> length a = i -> groups j = 0 ->
  exists m, run (repeat (Worker (length u)) m) s = Some (mkstate (a ++ (j, Finished) :: b) q (workers s)).
Proof.
  intros Hw Hq Hf Ha Hj.
  set (s1 := fun p => mkstate (a ++ (j, p) :: b) q (u ++ Some i :: v)).
  assert (H1 : step (Worker (length u)) s = Some (s1 (begin j))).
  { simpl. unfold worker_step, aget. rewrite Hw, nth_here. cbn [bind]. rewrite Hq, Hf, <- Ha, nth_here. cbn [bind fst]. rewrite aset_mid. cbn [bind].
    erewrite set_mid; [|reflexivity]. cbn [queue workers]. unfold s1. rewrite <- Ha. reflexivity. }
  assert (H2 : forall p p', advance i (s1 p) = Some (mkstate (a ++ (j, p') :: b) q (u ++ Some i :: v)) -> 
     step (Worker (length u)) (s1 p) = Some (mkstate (a ++ (j, p') :: b) q (match p' with Finished => u ++ None :: v | _ => u ++ Some i :: v end))).
  { intros p p' H. exact (worker_advance (s1 p) u v (length u) i a b j p p' eq_refl eq_refl Ha eq_refl H). }
  rewrite Hw. destruct (groups_zero _ Hj) as [-> | ->].
  - exists 2. cbn [repeat run]. rewrite H1. cbn [bind]. change (begin Leaf) with Playing. rewrite (H2 Playing Finished); [reflexivity|]. exact (advance_mid (s1 Playing) i a b Leaf Playing Ha eq_refl).
  - exists 3. cbn [repeat run]. rewrite H1. cbn [bind]. change (begin (Group [])) with (Spawning [] []).
    rewrite (H2 (Spawning [] []) (Touching [])); [|exact (advance_mid (s1 (Spawning [] [])) i a b _ _ Ha eq_refl)]. cbn [bind].
    change (mkstate (a ++ (Group [], Touching []) :: b) q (u ++ Some i :: v)) with (s1 (Touching [])).
    rewrite (H2 (Touching []) Finished); [reflexivity|]. exact (advance_mid (s1 (Touching [])) i a b _ _ Ha eq_refl).
Qed.
Lemma sum_pos {A} (g : A -> nat) f : sum (map g f) <> 0 -> exists i x, nth_error f i = Some x /\ g x <> 0.
Proof.
  induction f as [|y f IH]; simpl; [congruence|]. intros H. destruct (Nat.eq_dec (g y) 0) as [E|E]; [|exists 0, y; auto].
  destruct IH as (i & x & H1 & H2); [lia|]. exists (S i), x. auto.
Qed.

Lemma closing_step n l k s : closing n l k s -> k < n -> k < all_groups l ->
  exists schedule k' s', Forall (thread_of n) schedule /\ run schedule s = Some s' /\ closing n l k' s' /\ measure s' < measure s /\ k' <= n.
Proof.
  intros C Hk Hkl. assert (G := c_good _ _ _ _ C). assert (Hleft := c_left _ _ _ _ C).
  destruct (c_workers _ _ _ _ C) as (hs & Hws & Hhs).
  assert (Hheld : held s = hs) by (unfold held; rewrite Hws; apply held_map).
  destruct (queue s) as [|i q] eqn:Eq.
  - (* nothing is queued: a group that contains groups gets one of its events queued *)
    destruct (sum_pos left_over (futures s)) as (i & [j p] & Hn & Hx); [lia|].
    assert (Hp : exists r rest made, p = Spawning (r :: rest) made /\ all_groups (r :: rest) <> 0).
    { destruct p as [| |[|r rest] made| |]; unfold left_over in Hx; simpl in Hx; try congruence.
      - assert (H : In i (queue s)) by (apply (g_queue _ _ _ G); eauto). rewrite Eq in H. destruct H.
      - cbv in Hx. congruence.
      - exists r, rest, made. auto. }
    destruct Hp as (r & rest & made & -> & Hr).
    assert (Hi : i = 0 \/ In i (held s)).
    { destruct (Nat.eq_dec i 0) as [->|Hne]; [auto|right]. apply (g_held _ _ _ G). split; [exact Hne|]. eexists _, _. split; [exact Hn|exact I]. }
    destruct (split_at _ _ _ Hn) as (a & b & Hf & Ha).
    assert (Hm : moves s i j (Spawning (r :: rest) made) (Spawning rest (made ++ [length (futures s)])) [(r, Queued)]) by constructor.
    set (s' := mkstate (a ++ (j, Spawning rest (made ++ [length (futures s)])) :: b ++ [(r, Queued)]) (new_queue s [(r, Queued)]) (workers s)).
    assert (Hadv : advance i s = Some s').
    { destruct (advance_cases s a b _ _ Hf I) as [(p' & new & Hm' & E)|(_ & c & rest' & H & _)]; [|discriminate]. rewrite Ha in E. inversion Hm'; subst. exact E. }
    assert (Ht : exists t, thread_of n t /\ step t s = Some s').
    { destruct Hi as [->|Hi]; [exists Main; split; [exact I|exact Hadv]|].
      apply in_held in Hi as [w Hw]. exists (Worker w). split; [simpl; rewrite <- (g_workers _ _ _ G); eapply nth_error_lt; exact Hw|].
      simpl. unfold worker_step, aget. rewrite Hw. cbn [bind]. rewrite Hadv. cbn [bind]. rewrite <- Ha. unfold s'. rewrite fin_mid. reflexivity. }
    destruct Ht as (t & Ht & Hs). destruct (step_ok _ _ _ t G Ht) as (s1 & H1 & G' & _). rewrite Hs in H1. injection H1 as <-.
    exists [t], k, s'. splits; [auto|simpl; rewrite Hs; reflexivity| |rewrite <- Ha in Hm; exact (moves_measured _ _ _ _ _ _ _ Hf Hm _ _)|lia].
    assert (Hlast : nth_error (futures s') (length (futures s)) = Some (r, Queued)).
    { unfold s'. cbn [futures]. replace (a ++ (j, Spawning rest (made ++ [length (futures s)])) :: b ++ [(r, Queued)])
        with ((a ++ (j, Spawning rest (made ++ [length (futures s)])) :: b) ++ [(r, Queued)]) by (rewrite <- app_assoc; reflexivity).
      rewrite nth_error_app2 by (rewrite Hf, !app_length; simpl; lia).
      replace (length (futures s) - _) with 0 by (rewrite Hf, !app_length; simpl; lia). reflexivity. }
    assert (Hsame : forall c, c <> i -> c < length (futures s) -> nth_error (futures s') c = nth_error (futures s) c).
    { intros c H1 H2. unfold s'. cbn [futures]. rewrite Hf in H2 |- *. apply nth_change; [lia|exact H2]. }
    assert (Hwaits : forall c, waits s c -> waits s' c).
    { intros c [H|(m & ms & H)]; [left; exact H|right; exists m, ms]. rewrite Hsame; [exact H| |eapply nth_error_lt; exact H]. intros ->. congruence. }
    constructor.
    + exact G'.
    + exists hs. auto.
    + intros c Hc. destruct (Nat.eq_dec c i) as [->|Hne].
      * exists j, rest, (made ++ [length (futures s)]). split; [unfold s'; cbn [futures]; rewrite <- Ha; apply nth_here|].
        destruct rest as [|r2 rest2]; [|left; discriminate]. right. exists (length (futures s)). split; [apply in_app_iff; simpl; auto|].
        right. destruct (groups_pos r) as (m & ms & ->); [unfold all_groups in Hr; simpl in Hr; lia|]. exists m, ms. exact Hlast.
      * destruct (c_spawning _ _ _ _ C c Hc) as (jc & rc & mc & H1 & H2). exists jc, rc, mc. split.
        -- rewrite Hsame; [exact H1|exact Hne|eapply nth_error_lt; exact H1].
        -- destruct H2 as [H2|(c' & H2 & H3)]; [auto|right; eauto].
    + rewrite <- Hleft, Hf. unfold s'. cbn [futures]. rewrite !total_mid. change (sum (map left_over [])) with 0.
      unfold left_over. cbn [fst snd]. rewrite all_groups_cons. lia.
  - (* an idle thread takes the first *)
    assert (Hin : In i (queue s)) by (rewrite Eq; simpl; auto).
    destruct (proj1 (g_queue _ _ _ G i) Hin) as [j Hn]. destruct (split_at _ _ _ Hn) as (a & b & Hf & Ha).
    assert (Hi0 : i <> 0). { destruct (g_root _ _ _ G) as (p0 & H0 & Hp0). intros ->. congruence. }
    assert (Hni : ~ In i (held s)). { intros H. apply (g_held _ _ _ G) in H as [_ (j0 & p0 & H & Hp)]. rewrite Hn in H. injection H as <- <-. exact Hp. }
    set (v := repeat (@None nat) (n - S k)).
    assert (Hw : workers s = map Some hs ++ None :: v) by (rewrite Hws; replace (n - k) with (S (n - S k)) by lia; reflexivity).
    assert (Hlw : length (map (@Some nat) hs) = k) by (rewrite map_length; exact Hhs).
    assert (Hsame : forall x c, c <> i -> nth_error (a ++ x :: b) c = nth_error (futures s) c).
    { intros x c H. rewrite Hf, !nth_mid. rewrite Ha. apply Nat.eqb_neq in H. rewrite H. reflexivity. }
    destruct (Nat.eq_dec (groups j) 0) as [Hj|Hj].
    + destruct (worker_clears s (map Some hs) v i q j a b Hw Eq Hf Ha Hj) as [m Hrun]. rewrite Hlw in Hrun.
      set (s' := mkstate (a ++ (j, Finished) :: b) q (workers s)) in *.
      assert (Hfa : Forall (thread_of n) (repeat (Worker k) m)) by (apply Forall_forall; intros t Ht; apply repeat_spec in Ht; subst t; exact Hk).
      destruct (run_good _ _ _ Hfa _ G) as (s1 & H1 & G'). rewrite Hrun in H1. injection H1 as <-.
      exists (repeat (Worker k) m), k, s'. splits; [exact Hfa|exact Hrun| | |lia].
      * constructor.
        -- exact G'.
        -- exists hs. auto.
        -- intros c Hc. assert (Hne : c <> i) by (intros ->; destruct Hc; [congruence|exact (Hni H)]).
           destruct (c_spawning _ _ _ _ C c Hc) as (jc & rc & mc & H1 & H2). exists jc, rc, mc. split; [unfold s'; cbn [futures]; rewrite Hsame; auto|].
           destruct H2 as [H2|(c' & H2 & H3)]; [auto|right]. exists c'. split; [exact H2|]. destruct H3 as [H3|(m' & ms & H3)]; [left; exact H3|right].
           exists m', ms. unfold s'. cbn [futures]. rewrite Hsame; [exact H3|]. intros ->. rewrite Hn in H3. injection H3 as ->. rewrite groups_group in Hj. lia.
        -- rewrite <- Hleft, Hf. unfold s'. cbn [futures]. rewrite !total_mid. unfold left_over. cbn [fst snd]. lia.
      * unfold measure, s'. cbn [futures]. rewrite Hf, !total_mid. unfold measure1. cbn [fst snd]. destruct (groups_zero _ Hj) as [->| ->]; simpl; lia.
    + destruct (groups_pos _ Hj) as (m & ms & ->).
      set (s' := mkstate (a ++ (Group (m :: ms), Spawning (m :: ms) []) :: b) q (map Some hs ++ Some i :: v)).
      assert (Hs : step (Worker k) s = Some s').
      { simpl. unfold worker_step, aget. rewrite Hw, <- Hlw, nth_here. cbn [bind]. rewrite Eq, Hn. cbn [bind fst]. rewrite aset_mid. cbn [bind].
        rewrite <- Ha. erewrite set_mid; [|simpl; exact Hf]. rewrite Ha. reflexivity. }
      destruct (step_ok _ _ _ (Worker k) G Hk) as (s1 & H1 & G' & _). rewrite Hs in H1. injection H1 as <-.
      exists [Worker k], (S k), s'. splits; [auto|cbn [run]; rewrite Hs; reflexivity| | |lia].
      * assert (Hheld' : held s' = hs ++ [i]).
        { unfold held, s'. cbn [workers]. replace (map Some hs ++ Some i :: v) with (map Some (hs ++ [i]) ++ repeat None (n - S k)); [apply held_map|].
          rewrite map_app, <- app_assoc. reflexivity. }
        constructor.
        -- exact G'.
        -- exists (hs ++ [i]). split; [unfold s'; cbn [workers]; rewrite map_app, <- app_assoc; reflexivity|rewrite app_length; simpl; lia].
        -- intros c Hc. destruct (Nat.eq_dec c i) as [->|Hne].
           ++ exists (Group (m :: ms)), (m :: ms), []. split; [unfold s'; cbn [futures]; rewrite <- Ha; apply nth_here|left; discriminate].
           ++ assert (Hc' : c = 0 \/ In c (held s)). { destruct Hc as [Hc|Hc]; [auto|]. rewrite Hheld' in Hc. apply in_app_iff in Hc as [Hc|[Hc|[]]]; [right; congruence|congruence]. }
              destruct (c_spawning _ _ _ _ C c Hc') as (jc & rc & mc & H1 & H2). exists jc, rc, mc. split; [unfold s'; cbn [futures]; rewrite Hsame; auto|].
              destruct H2 as [H2|(c' & H2 & H3)]; [auto|right]. exists c'. split; [exact H2|]. destruct (Nat.eq_dec c' i) as [->|Hne'].
              ** left. rewrite Hheld'. apply in_app_iff. simpl. auto.
              ** destruct H3 as [H3|(m' & ms' & H3)]; [left; rewrite Hheld'; apply in_app_iff; left; congruence|right].
                 exists m', ms'. unfold s'. cbn [futures]. rewrite Hsame; auto.
        -- rewrite <- Hleft, Hf. unfold s'. cbn [futures]. rewrite !total_mid. unfold left_over. cbn [fst snd]. rewrite groups_group. lia.
      * unfold measure, s'. cbn [futures]. rewrite Hf, !total_mid. unfold measure1. cbn [fst snd]. rewrite cost_group. simpl. lia.
Qed.

Lemma closing_end n l : n <= all_groups l -> forall d s k, measure s <= d -> closing n l k s -> k <= n ->
  exists schedule s', Forall (thread_of n) schedule /\ run schedule s = Some s' /\ dead n l s'.
Proof.
  intros Hn. induction d as [|d IH]; intros s k Hm C Hk.
  all: destruct (Nat.eq_dec k n) as [->|Hne]; [exists [], s; splits; auto; apply closing_dead; exact C|].
  all: destruct (closing_step _ _ _ _ C ltac:(lia) ltac:(lia)) as (sch & k' & s' & H1 & H2 & H3 & H4 & H5).
  { lia. }
  destruct (IH s' k' ltac:(lia) H3 H5) as (sch' & s2 & H6 & H7 & H8). exists (sch ++ sch'), s2. splits; auto.
  - apply Forall_app. auto.
  - rewrite run_app, H2. exact H7.
Qed.
Lemma nested_deadlock n l : 0 < n -> n <= all_groups l -> exists schedule s,
  Forall (thread_of n) schedule /\ run schedule (start n l) = Some s /\ forall schedule' s', run schedule' s = Some s' -> ~ returned s'.
Proof.
  intros H0 Hn. assert (Hl : l <> []) by (intros ->; cbv in Hn; lia).
  destruct (closing_end n l Hn _ _ 0 (le_n _) (closing_start n l Hl) (Nat.le_0_l n)) as (sch & s & H1 & H2 & H3).
  exists sch, s. splits; auto. intros sch' s' H. exact (dead_forever n l sch' s s' H3 H).
Qed.
