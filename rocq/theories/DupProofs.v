(** Proofs about DupModel.v *)
From Verif Require Import Base BlockModel BlockSpec BlockProofs DupModel DupSpec.
Open Scope nat_scope.

Section Dup.
Variable V : Type.
Variable zero : V.
Notation mem := (mem V).
Notation cells := (cells V).

Lemma fill_new (g : mem -> nat -> option V) (l : list V) m p : cells m p = Some (repeat zero (length l)) ->
  (forall m' i, (forall q, q <> p -> cells m' q = cells m q) -> i < length l -> g m' i = nth_error l i) ->
  exists m', for_ 0 (length l) (fun i m => x <- g m i ;; store V m (p, 0) i x) m = Some m' /\ cells m' p = Some l /\ forall q, q <> p -> cells m' q = cells m q.
Proof.
  intros h hg. destruct (for_inv (fun k m' => exists a, cells m' p = Some a /\ length a = length l /\ (forall i, i < k -> nth_error a i = nth_error l i) /\ forall q, q <> p -> cells m' q = cells m q)
    (fun i m => x <- g m i ;; store V m (p, 0) i x) 0 (length l) m) as (m' & e & a & h1 & h2 & h3 & h4); [lia| | |].
  - eexists. split; [exact h|]. splits; auto; [apply repeat_length|]. intros i hi. lia.
  - intros k m1 hk (a & k1 & k2 & k3 & k4). rewrite hg by (auto; lia). destruct (nth_error l k) as [x|] eqn:ex; [|apply nth_error_None in ex; lia]. cbn [bind].
    destruct (store_ok V m1 (p, 0) k x a k1) as (m2 & a2 & e1 & e2 & e3 & e4); [cbn; lia|]. cbn [fst snd Nat.add] in *. exists m2. split; [exact e1|]. exists a2. splits; auto.
    + rewrite (aset_length _ _ _ _ e2). exact k2.
    + intros i hi. rewrite (aset_get _ _ _ _ i e2). destruct (Nat.eqb_spec i k) as [->|]; [auto|]. apply k3. lia.
    + intros q hq. rewrite e4 by exact hq. apply k4, hq.
  - exists m'. splits; auto. rewrite h1. f_equal. apply nth_error_ext. intros i. destruct (Nat.lt_ge_cases i (length l)) as [hi|hi]; [apply h3, hi|]. rewrite !(proj2 (nth_error_None _ _)) by lia. reflexivity.
Qed.
Lemma new_some memory_id count out m : honest V m -> exists p m', array_new V zero memory_id true count out m = (success, Some p, m') /\ one_more V m p (repeat zero count) m'.
Proof.
  intros h. unfold array_new, alloc. cbn [helper_alloc]. eexists _, _. split; [reflexivity|]. unfold one_more. cbn [fst snd BlockModel.cells]. rewrite Nat.eqb_refl. splits; auto. intros q hq. destruct (Nat.eqb_spec q (next V m)); [contradiction|reflexivity].
Qed.
Lemma duplicate_some memory_id a l out m : honest V m -> (forall i, i < length l -> load V m a i = nth_error l i) -> l <> [] ->
  exists p m', array_duplicate V zero memory_id true a (length l) out m = Some (success, Some p, m') /\ one_more V m p l m' /\ fst p <> fst a.
Proof.
  intros hm hl ne. unfold array_duplicate. destruct (new_some memory_id (length l) None m hm) as ([p o] & m1 & e & o0 & o1 & o2 & o3). cbn [fst snd] in *. subst o. rewrite e. cbn [is_failure success s_id Z.eqb negb bind].
  assert (d : p <> fst a). { intros ->. destruct l as [|x l]; [contradiction|]. specialize (hl 0 ltac:(cbn; lia)). unfold load in hl. rewrite o1 in hl. discriminate. }
  destruct (fill_new (fun m i => load V m a i) l m1 p) as (m' & em & k1 & k2); [exact o2| |].
  - intros m2 i h2 hi. rewrite <- (hl i hi). unfold load. rewrite h2, o3 by auto. reflexivity.
  - rewrite em. cbn [bind]. eexists _, _. split; [reflexivity|]. split; [|exact d]. unfold one_more. cbn [fst snd]. splits; auto. intros q hq. rewrite k2, o3 by exact hq. reflexivity.
Qed.
Lemma constant_some memory_id count v out m : honest V m -> exists p m', times_constant V zero memory_id true count v out m = Some (success, Some p, m') /\ one_more V m p (repeat v count) m'.
Proof.
  intros hm. unfold times_constant. destruct (new_some memory_id count None m hm) as ([p o] & m1 & e & o0 & o1 & o2 & o3). cbn [fst snd] in *. subst o. rewrite e. cbn [is_failure success s_id Z.eqb negb bind].
  destruct (fill_new (fun m i => Some v) (repeat v count) m1 p) as (m' & em & k1 & k2); [rewrite repeat_length; exact o2| |].
  - intros m2 i _ hi. rewrite repeat_length in hi. symmetry. apply nth_error_repeat, hi.
  - rewrite repeat_length in em. cbn [bind] in em. rewrite em. cbn [bind]. eexists _, _. split; [reflexivity|]. unfold one_more. cbn [fst snd]. splits; auto. intros q hq. rewrite k2, o3 by exact hq. reflexivity.
Qed.
(** writing and freeing an array does not change others *)
Lemma one_more_separate m p l m' : one_more V m p l m' -> (forall i x, i < length l -> exists m2, store V m' p i x = Some m2 /\ forall q, q <> fst p -> cells m2 q = cells m q) /\
  (exists m2, free V m' p = Some m2 /\ forall q, cells m2 q = cells m q).
Proof.
  intros (o0 & o1 & o2 & o3). split.
  - intros i x hi. destruct (store_ok V m' p i x l o2) as (m2 & a2 & e1 & e2 & e3 & e4); [lia|]. exists m2. split; [exact e1|]. intros q hq. rewrite e4, o3 by exact hq. reflexivity.
  - unfold free. rewrite o0, Nat.eqb_refl. cbn [need bind]. rewrite o2. cbn [bind]. eexists. split; [reflexivity|]. intros q. cbn [update BlockModel.cells]. destruct (Nat.eqb_spec q (fst p)) as [->|n]; [auto|apply o3, n].
Qed.
Lemma failure_reported memory_id a count v out m : memory_id <> 0%Z ->
  array_new V zero memory_id false count out m = (memory_error memory_id, out, m) /\ array_duplicate V zero memory_id false a count out m = Some (memory_error memory_id, out, m) /\
  times_constant V zero memory_id false count v out m = Some (memory_error memory_id, out, m).
Proof.
  intros h. unfold array_duplicate, times_constant, array_new, alloc. cbn [helper_alloc]. assert (f : is_failure (memory_error memory_id) = true) by (unfold is_failure, memory_error; cbn [s_id]; rewrite (proj2 (Z.eqb_neq _ _) h); reflexivity).
  rewrite f. splits; reflexivity.
Qed.
End Dup.
