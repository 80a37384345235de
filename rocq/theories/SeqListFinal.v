From Verif Require Import Base SeqModel SeqSpec SeqListProofs.
From Coq Require Import Permutation.

Section Final.
Variable D : Type.
Notation event := (event D).

Lemma filter_remove (l1 l2 : list (nat * event)) p e : NoDup (map fst (l1 ++ (p, e) :: l2)) ->
  filter (fun x => negb (fst x =? p)) (l1 ++ (p, e) :: l2) = l1 ++ l2.
Proof.
  intro H. rewrite map_app in H. cbn in H. apply NoDup_remove_2 in H. rewrite in_app_iff in H.
  assert (A : forall l : list (nat * event), ~ In p (map fst l) -> filter (fun x => negb (fst x =? p)) l = l).
  { induction l as [|[q eq] l IH]; intro Hn; [reflexivity|]. cbn in *. destruct (Nat.eqb_spec q p); [tauto|]. cbn. rewrite IH; tauto. }
  rewrite filter_app. cbn [filter fst]. rewrite Nat.eqb_refl. cbn [negb]. rewrite !A; tauto.
Qed.

Lemma ops_correct ops : forall h head l l',
  represents D h head l -> ops_spec D ops (fresh D h) l = Some l' ->
  exists head' h', run_ops D ops head h = Some (head', h') /\ represents D h' head' l' /\ list_validate D head' h' = Some true.
Proof.
  induction ops as [|op ops IH]; intros h head l l' HR HS.
  - cbn in HS. injection HS as <-. exists head, h. splits; auto. now apply validate_correct with l.
  - destruct op as [ok e|p|]; cbn [run_ops ops_spec] in *.
    + destruct ok.
      * destruct (add_correct D h head l e HR) as [head' [h' [A [B [C _]]]]]. rewrite A. cbn [bind].
        rewrite <- B in HS. eauto.
      * cbn [list_add bind]. eauto.
    + destruct (existsb _ l) eqn:Ex; [|discriminate]. apply existsb_exists in Ex as [[q e] [Hin Hq]]. cbn in Hq.
      apply Nat.eqb_eq in Hq. subst q. apply in_split in Hin as [l1 [l2 ->]].
      rewrite filter_remove in HS by (exact (proj1 (proj2 HR))).
      destruct (remove_correct D h head l1 p e l2 HR) as [head' [h' [A [B [C _]]]]]. rewrite A. cbn [bind]. rewrite <- C in HS. eauto.
    + destruct l as [|x l]; [discriminate|].
      destruct (reverse_correct D h head (x :: l) HR ltac:(discriminate)) as [head' [h' [A [B _]]]]. rewrite A. cbn [bind].
      assert (Fr : fresh D h' = fresh D h).
      { destruct HR as [HR1 [HR2 HR3]]. pose proof (represents_length _ _ _ _ (conj HR1 (conj HR2 HR3))) as HL.
        destruct (reverse_loop_correct D (x :: l) (fuel D h) h [] head None None) as [c [h2 [E [Ef _]]]]; auto.
        - unfold fuel. lia.
        - reflexivity.
        - discriminate.
        - unfold list_reverse in A. rewrite E in A. congruence. }
      rewrite <- Fr in HS. eauto.
Qed.

Fixpoint adds_spec (adds : list (bool * event)) (next : nat) (l : list (nat * event)) : list (nat * event) :=
  match adds with
  | [] => l
  | (true, e) :: rest => adds_spec rest (S next) (insert D (next, e) l)
  | (false, e) :: rest => adds_spec rest next l
  end.

Lemma adds_ops adds : forall next l tail,
  ops_spec D (map (fun x => LAdd D (fst x) (snd x)) adds ++ tail) next l =
  ops_spec D tail (next + length (filter fst adds)) (adds_spec adds next l).
Proof.
  induction adds as [|[[|] e] adds IH]; intros next l tail; cbn [map app fst snd ops_spec adds_spec filter length].
  - f_equal. lia.
  - rewrite IH. f_equal. lia.
  - apply IH.
Qed.

Lemma adds_props adds : forall next l,
  descending D (map snd l) ->
  let l' := adds_spec adds next l in
  descending D (map snd l') /\ Permutation (map snd l') (map snd (filter fst adds) ++ map snd l) /\
  (forall t, starting_at D t (map snd l') = rev (starting_at D t (map snd (filter fst adds))) ++ starting_at D t (map snd l)).
Proof.
  induction adds as [|[[|] e] adds IH]; intros next l Hd; cbn [adds_spec filter fst map snd].
  - splits; auto.
  - destruct (IH (S next) (insert D (next, e) l) (insert_descending D _ _ Hd)) as [A [B C]]. splits; auto.
    + rewrite B. rewrite (Permutation_map snd (insert_perm D (next, e) l)). cbn [map snd]. symmetry. apply Permutation_middle.
    + intro t. rewrite C, insert_stable by exact Hd. cbn [snd].
      change (e :: map snd (filter fst adds)) with ([e] ++ map snd (filter fst adds)).
      rewrite starting_at_app, rev_app_distr, <- app_assoc. f_equal. f_equal.
      unfold starting_at. cbn [filter]. destruct (_ =? _); reflexivity.
  - apply IH. exact Hd.
Qed.

Lemma adds_reverse adds :
  filter fst adds <> [] ->
  exists head h l,
    run_ops D (map (fun x => LAdd D (fst x) (snd x)) adds ++ [LReverse D]) None (empty_heap D) = Some (head, h) /\
    represents D h head l /\
    sorted D (map snd l) /\
    Permutation (map snd l) (map snd (filter fst adds)) /\
    (forall t, starting_at D t (map snd l) = starting_at D t (map snd (filter fst adds))).
Proof.
  intro Hne.
  assert (H0 : represents D (empty_heap D) None []) by (unfold represents; splits; constructor).
  destruct (adds_props adds 0 [] I) as [A [B C]]. cbn [map] in B, C. rewrite app_nil_r in B.
  set (l := adds_spec adds 0 []) in *.
  assert (Hl : l <> []).
  { intro E. rewrite E in B. cbn in B. apply Permutation_nil in B. destruct (filter fst adds); [congruence|discriminate]. }
  destruct (ops_correct (map (fun x => LAdd D (fst x) (snd x)) adds ++ [LReverse D]) (empty_heap D) None [] (rev l) H0)
    as [head [h [E [R _]]]].
  - rewrite adds_ops. cbn [ops_spec fresh empty_heap]. fold l. destruct l; [congruence|reflexivity].
  - exists head, h, (rev l). rewrite map_rev. splits; auto.
    + apply descending_rev. exact A.
    + rewrite <- Permutation_rev. exact B.
    + intro t. rewrite starting_at_rev, C. cbn. rewrite app_nil_r. apply rev_involutive.
Qed.

Lemma reverse_involutive h head l :
  represents D h head l -> l <> [] ->
  exists head' h' head'' h'',
    list_reverse D head h = Some (head', h') /\ represents D h' head' (rev l) /\
    list_reverse D head' h' = Some (head'', h'') /\ represents D h'' head'' l.
Proof.
  intros HR Hne. destruct (reverse_correct D h head l HR Hne) as [h1 [g1 [A [B _]]]].
  assert (Hne' : rev l <> []) by (intro E; apply Hne; rewrite <- (rev_involutive l), E; reflexivity).
  destruct (reverse_correct D g1 h1 (rev l) B Hne') as [h2 [g2 [A2 [B2 _]]]]. rewrite rev_involutive in B2.
  exists h1, g1, h2, g2. auto.
Qed.
End Final.
