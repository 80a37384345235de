(** Growable arrays: proofs *)
From Verif Require Import Base A3Model A3Spec.
Open Scope Z_scope.

Section A3.
Context {V : Type}.
Variable width : Z.
Hypothesis Hw : 0 < width.

(** the array holds the list [l] with capacity [cap] *)
Definition holds (a : array3 V) (cap : Z) (l : list V) : Prop :=
  exists c, cells a = Some c /\ size a = cap /\ used a = Z.of_nat (length l) /\ Z.of_nat (length l) <= cap /\ cap < 2 ^ 64 /\ length c = Z.to_nat cap /\
  forall i, (i < length l)%nat -> nth_error c i = Some (nth_error l i).

Lemma elements_fit n : 0 <= n -> n * width < 2 ^ 64 -> elements width n = Z.to_nat n.
Proof.
  intros Hn Hf. unfold elements, u64, two64. rewrite Z.mod_small by nia. rewrite Z.div_mul by lia. reflexivity.
Qed.
Lemma size_fit n : 0 <= n -> n * width < 2 ^ 64 -> n < 2 ^ 64.
Proof. intros. nia. Qed.
Lemma new_holds n : 0 <= n -> n * width < 2 ^ 64 -> exists a, a3_new (V:=V) width true n = (0, Some a) /\ holds a n [].
Proof.
  intros Hn Hf. eexists. split; [reflexivity|]. exists (repeat None (Z.to_nat n)). rewrite elements_fit by assumption. cbn [cells size used length].
  pose proof (size_fit n Hn Hf). splits; auto; try lia. rewrite repeat_length. reflexivity.
Qed.
Lemma removelast_length {A} (l : list A) : l <> [] -> length (removelast l) = (length l - 1)%nat.
Proof. intros H. destruct (exists_last H) as (l' & x & ->). rewrite removelast_last, app_length. cbn. lia. Qed.
Lemma run_holds uses : forall a cap l r cap' l', holds a cap l -> stack_run width cap l uses = Some (r, (cap', l')) ->
  exists a', a3_run width a uses = Some (r, a') /\ holds a' cap' l'.
Proof.
  induction uses as [|u uses IH]; intros a cap l r cap' l' (c & Hc & Hs & Hu & Hl & Hcap & Hlen & Hget) E; cbn [stack_run] in E.
  { injection E as <- <- <-. exists a. split; [reflexivity|]. exists c. splits; auto. }
  destruct u as [v| | |ok n|i]; cbn [a3_run].
  - destruct (Z.ltb_spec (Z.of_nat (length l)) cap) as [Hlt|]; [|discriminate].
    unfold a3_add. rewrite Hc. cbn [bind]. destruct (aset_some c (Z.to_nat (used a)) (Some v)) as (c' & Ec); [lia|]. rewrite Ec. cbn [bind].
    apply (IH _ cap (l ++ [v])); [|exact E]. exists c'. cbn [cells size used]. rewrite app_length. cbn [length]. splits; auto; try lia.
    + unfold u64, two64. rewrite Z.mod_small by lia. lia.
    + rewrite (aset_length _ _ _ _ Ec). exact Hlen.
    + intros i Hi. rewrite (aset_get _ _ _ _ i Ec), Hu, Nat2Z.id. destruct (Nat.eqb_spec i (length l)) as [->|Hne].
      * rewrite nth_error_app2, Nat.sub_diag by lia. reflexivity.
      * rewrite nth_error_app1 by lia. apply Hget. lia.
  - destruct (Z.eqb_spec (Z.of_nat (length l)) 0) as [|Hne]; [discriminate|]. apply (IH _ cap (removelast l)); [|exact E].
    assert (Hl0 : l <> []) by (intros ->; cbn in Hne; lia). exists c. cbn [a3_remove cells size used]. rewrite removelast_length by exact Hl0. splits; auto; try lia.
    + unfold u64, two64. rewrite Z.mod_small by lia. lia.
    + intros i Hi. rewrite Hget by lia. f_equal. destruct (exists_last Hl0) as (l0 & x & ->). rewrite removelast_last. rewrite app_length in Hi. cbn [length] in Hi. rewrite nth_error_app1 by lia. reflexivity.
  - apply (IH _ cap []); [|exact E]. exists c. cbn [a3_clear cells size used length]. splits; auto; lia.
  - destruct (Z.ltb_spec 0 n) as [Hn|]; [|discriminate]. destruct (Z.ltb_spec (n * width) (2 ^ 64)) as [Hf|]; [|discriminate]. cbn [andb] in E.
    unfold a3_resize. rewrite Hc. cbn [bind]. destruct ok.
    + destruct (stack_run width n (firstn (Z.to_nat n) l) uses) as [[r1 [cap1 l1]]|] eqn:E1; [|discriminate]. cbn [bind] in E. injection E as <- <- <-.
      cbn [bind]. match goal with |- context [a3_run width ?x uses] => assert (Hx : holds x n (firstn (Z.to_nat n) l)) end.
      2:{ destruct (IH _ _ _ _ _ _ Hx E1) as (a' & Ea & Ha). rewrite Ea. cbn [bind]. exists a'. split; [reflexivity|exact Ha]. }
      rewrite elements_fit by lia. eexists. cbn [cells size used]. split; [reflexivity|]. pose proof (size_fit n ltac:(lia) Hf). rewrite firstn_length. splits; auto; try lia.
      * destruct (Z.ltb_spec n (used a)); lia.
      * rewrite app_length, firstn_length, repeat_length. lia.
      * intros i Hi. rewrite nth_error_app1 by (rewrite firstn_length; lia). rewrite !nth_error_firstn by lia. apply Hget. lia.
    + destruct (stack_run width cap l uses) as [[r1 [cap1 l1]]|] eqn:E1; [|discriminate]. cbn [bind] in E. injection E as <- <- <-.
      destruct (Z.eqb_spec (u64 (n * width)) 0) as [Hz|]. { unfold u64, two64 in Hz. rewrite Z.mod_small in Hz by nia. nia. }
      cbn [bind]. destruct (IH a cap l r1 cap1 l1) as (a' & Ea & Ha); [exists c; splits; auto|exact E1|]. rewrite Ea. cbn [bind]. exists a'. split; [reflexivity|exact Ha].
  - destruct (Z.leb_spec 0 i) as [Hi|]; [|discriminate]. destruct (nth_error l (Z.to_nat i)) as [v|] eqn:Ev; [|discriminate]. cbn [bind] in E.
    destruct (stack_run width cap l uses) as [[r1 [cap1 l1]]|] eqn:E1; [|discriminate]. cbn [bind] in E. injection E as <- <- <-.
    unfold a3_get, aget. rewrite Hc. cbn [bind]. rewrite Hget by (apply nth_error_Some; congruence). rewrite Ev. cbn [bind].
    destruct (IH a cap l r1 cap1 l1) as (a' & Ea & Ha); [exists c; splits; auto|exact E1|]. rewrite Ea. cbn [bind]. exists a'. split; [reflexivity|exact Ha].
Qed.
Lemma holds_sizes a cap l : holds a cap l ->
  a3_size a = Z.of_nat (length l) /\ a3_max_size a = cap /\ a3_unused_size a = cap - Z.of_nat (length l) /\
  (a3_full a = true <-> Z.of_nat (length l) = cap) /\ (a3_not_full a = true <-> Z.of_nat (length l) < cap) /\
  (forall i v, nth_error l i = Some v -> a3_get a (Z.of_nat i) = Some v) /\ exists a', a3_free a = Some a' /\ a3_free a' = None.
Proof.
  intros (c & Hc & Hs & Hu & Hl & Hcap & Hlen & Hget). unfold a3_size, a3_max_size, a3_unused_size, a3_full, a3_not_full, a3_free. rewrite Hc, Hs, Hu. splits; auto.
  - unfold u64, two64. rewrite Z.mod_small; lia.
  - apply Z.eqb_eq. 
  - apply Z.ltb_lt.
  - intros i v Ev. unfold a3_get, aget. rewrite Hc, Nat2Z.id. cbn [bind]. rewrite Hget by (apply nth_error_Some; congruence). rewrite Ev. reflexivity.
  - cbn [bind]. eexists. split; [reflexivity|]. reflexivity.
Qed.
Lemma uses_correct n uses r cap l : 0 < n -> n * width < 2 ^ 64 -> stack_run width n [] uses = Some (r, (cap, l)) ->
  exists a0 a, a3_new (V:=V) width true n = (0, Some a0) /\ a3_run width a0 uses = Some (r, a) /\
  a3_size a = Z.of_nat (length l) /\ a3_max_size a = cap /\ a3_unused_size a = cap - Z.of_nat (length l) /\
  (a3_full a = true <-> Z.of_nat (length l) = cap) /\ (a3_not_full a = true <-> Z.of_nat (length l) < cap) /\
  (forall i v, nth_error l i = Some v -> a3_get a (Z.of_nat i) = Some v) /\ exists a', a3_free a = Some a' /\ a3_free a' = None.
Proof.
  intros Hn Hf E. destruct (new_holds n ltac:(lia) Hf) as (a0 & E0 & H0). destruct (run_holds uses a0 n [] r cap l H0 E) as (a & Ea & Ha).
  exists a0, a. split; [exact E0|]. split; [exact Ea|]. apply holds_sizes. exact Ha.
Qed.

(** sizes whose bytes do not fit *)
Lemma large_new : 1 < width < 2 ^ 64 -> exists n a, 0 < n < 2 ^ 64 /\ a3_new (V:=V) width true n = (0, Some a) /\ a3_not_full a = true /\ forall v, a3_add a v = None.
Proof.
  intros H1. set (n := (2 ^ 64 + width - 1) / width). pose proof (Z.div_mod (2 ^ 64 + width - 1) width ltac:(lia)) as D. fold n in D. pose proof (Z.mod_pos_bound (2 ^ 64 + width - 1) width Hw) as M.
  assert (Hn : 0 < n < 2 ^ 64) by nia.
  assert (He : elements width n = 0%nat).
  { unfold elements, u64, two64. replace (n * width) with ((n * width - 2 ^ 64) + 1 * 18446744073709551616) by lia. rewrite Z_mod_plus_full, Z.mod_small by lia. rewrite Z.div_small by lia. reflexivity. }
  eexists n, _. split; [exact Hn|]. split; [reflexivity|]. rewrite He. split; [apply Z.ltb_lt; cbn; lia|]. intros v. reflexivity.
Qed.
(** resize to zero *)
Lemma resize_zero (a : array3 V) : cells a <> None -> exists a', a3_resize width false a 0 = Some (1, a') /\ size a' = size a /\ used a' = used a /\
  a3_free a' = None /\ (forall v, a3_add a' v = None) /\ (forall i, a3_get a' i = None) /\ (forall ok n, a3_resize (V:=V) width ok a' n = None).
Proof.
  intros Hc. unfold a3_resize. destruct (cells a) as [c|]; [|contradiction]. cbn [bind]. rewrite Z.mul_0_l. cbn. eexists. split; [reflexivity|]. splits; reflexivity.
Qed.
(** the last element *)
Lemma aset_middle {A} (l : list A) x y r : aset (l ++ x :: r) (length l) y = Some (l ++ y :: r).
Proof. induction l as [|z l IH]; [reflexivity|]. cbn [app length aset]. rewrite IH. reflexivity. Qed.
Lemma run_adds n (l l0 : list V) : Z.of_nat (length (l0 ++ l)) <= n < 2 ^ 64 ->
  a3_run width (mkarray3 (Some (map Some l0 ++ repeat None (Z.to_nat n - length l0))) n (Z.of_nat (length l0))) (map Add l) =
  Some ([], mkarray3 (Some (map Some (l0 ++ l) ++ repeat None (Z.to_nat n - length (l0 ++ l)))) n (Z.of_nat (length (l0 ++ l)))).
Proof.
  revert l0. induction l as [|v l IH]; intros l0 H; cbn [map a3_run]; [rewrite app_nil_r in *; reflexivity|].
  unfold a3_add. cbn [cells size used bind]. rewrite Nat2Z.id. rewrite app_length in H. cbn [length] in H. destruct (Z.to_nat n - length l0)%nat as [|k] eqn:Ek; [lia|].
  cbn [repeat]. pose proof (aset_middle (map (@Some V) l0) None (Some v) (repeat None k)) as Am. rewrite map_length in Am. rewrite Am. cbn [bind].
  replace (l0 ++ v :: l) with ((l0 ++ [v]) ++ l) by (rewrite <- app_assoc; reflexivity). rewrite <- IH by (rewrite !app_length; cbn [length]; lia).
  rewrite map_app, app_length. cbn [map length]. rewrite <- app_assoc. cbn [app]. replace (Z.to_nat n - (length l0 + 1))%nat with k by lia. f_equal. f_equal. unfold u64, two64. rewrite Z.mod_small; lia.
Qed.
Lemma adds_last n (l : list V) : 0 < n -> n * width < 2 ^ 64 -> Z.of_nat (length l) <= n ->
  exists a0 a, a3_new (V:=V) width true n = (0, Some a0) /\ a3_run width a0 (map Add l) = Some ([], a) /\
  a3_data_last a = if Z.of_nat (length l) =? n then nth_error l (length l - 1) else None.
Proof.
  intros Hn Hf Hl. pose proof (size_fit n ltac:(lia) Hf) as Hs. eexists _, _. split; [reflexivity|]. rewrite elements_fit by lia. split.
  - pose proof (run_adds n l [] ltac:(cbn [app]; lia)) as R. cbn [app map length] in R. rewrite Nat.sub_0_r in R. exact R.
  - unfold a3_data_last, a3_get, aget. cbn [cells size bind]. unfold u64, two64. rewrite Z.mod_small by lia. destruct (Z.eqb_spec (Z.of_nat (length l)) n) as [E|E].
    + rewrite nth_error_app1 by (rewrite map_length; lia). rewrite nth_error_map. replace (Z.to_nat (n - 1)) with (length l - 1)%nat by lia.
      destruct (nth_error l (length l - 1)); reflexivity.
    + rewrite nth_error_app2 by (rewrite map_length; lia). rewrite map_length. rewrite nth_error_repeat by lia. reflexivity.
Qed.
Lemma stack_add n u (v : V) : 0 <= n <= u -> a3_add (a3_declare_stack n u) v = None.
Proof.
  intros H. unfold a3_add, a3_declare_stack. cbn [cells used bind]. rewrite aset_none; [reflexivity|]. rewrite repeat_length. lia.
Qed.
End A3.
