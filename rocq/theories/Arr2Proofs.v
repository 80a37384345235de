From Verif Require Import Base MiscModel MiscSpec ArrModel ArrSpec Arr2Spec ArrProofs.
From Coq Require Import ZifyBool ZifyNat Permutation.

Lemma slice_nth {A} (m : list A) p n l i : slice m p n = Some l -> i < n -> exists x, aget m (p + i) = Some x /\ nth_error l i = Some x.
Proof.
  intros H Hi. destruct (nth_error_some l i) as [x Hx]; [rewrite (slice_length _ _ _ _ H); exact Hi|].
  exists x. split; [|exact Hx]. unfold aget. rewrite <- (slice_get _ _ _ _ _ H Hi). exact Hx.
Qed.

Lemma firstn_last {A} (l : list A) : forall i y, nth_error l i = Some y -> firstn (S i) l = firstn i l ++ [y].
Proof.
  induction l as [|x l IH]; intros [|i] y H; try discriminate; cbn [nth_error] in H.
  - injection H as ->. reflexivity.
  - rewrite firstn_cons, (IH i y H). reflexivity.
Qed.

(** the search for the element that [better] prefers *)
Lemma best_correct {A} (better : A -> A -> bool) (m : list A) p n l :
  (forall x y, better x y = true -> better y x = false) ->
  (forall x y z, better x y = false -> better y z = false -> better x z = false) ->
  slice m p n = Some l -> 0 < n ->
  exists x, bind (aget m p) (fun x => for_ 1 n (fun i out => y <- aget m (p + i) ;; Some (if better y out then y else out)) x) = Some x /\
  In x l /\ Forall (fun y => better y x = false) l.
Proof.
  intros H1 H2 HS Hn. destruct (slice_nth _ _ _ _ 0 HS Hn) as [x0 [E0 N0]]. rewrite Nat.add_0_r in E0. rewrite E0. cbn [bind].
  assert (I : forall x, better x x = false) by (intro x; destruct (better x x) eqn:E; [rewrite (H1 _ _ E) in E|]; auto).
  destruct (for_inv (fun i x => In x l /\ forall k y, k < i -> nth_error l k = Some y -> better y x = false)
    (fun i out => y <- aget m (p + i) ;; Some (if better y out then y else out)) 1 n x0) as [x [E [HI HF]]].
  - lia.
  - split; [eapply nth_error_In; exact N0|]. intros k y Hk Hy. replace k with 0 in Hy by lia. rewrite N0 in Hy. injection Hy as <-. apply I.
  - intros i x Hi [HI HF]. destruct (slice_nth _ _ _ _ i HS) as [y [Ey Ny]]; [lia|]. rewrite Ey. cbn [bind].
    destruct (better y x) eqn:B.
    + exists y. splits; [reflexivity|eapply nth_error_In; exact Ny|]. intros k z Hk Hz. destruct (Nat.eq_dec k i) as [->|Hne].
      * rewrite Ny in Hz. injection Hz as <-. apply I.
      * apply H2 with x; [apply HF with k; [lia|exact Hz]|apply H1; exact B].
    + exists x. splits; [reflexivity|exact HI|]. intros k z Hk Hz. destruct (Nat.eq_dec k i) as [->|Hne].
      * rewrite Ny in Hz. injection Hz as <-. exact B.
      * apply HF with k; [lia|exact Hz].
  - exists x. splits; auto. apply Forall_forall. intros y Hy. apply In_nth_error in Hy. destruct Hy as [k Hk].
    apply HF with k; [|exact Hk]. apply nth_error_lt in Hk. rewrite (slice_length _ _ _ _ HS) in Hk. exact Hk.
Qed.

Lemma min_correct {V} (lt : V -> V -> bool) (m : list V) p n l : ordered lt -> slice m p n = Some l -> 0 < n ->
  exists x, arr_min V lt m p n = Some x /\ In x l /\ Forall (fun y => lt y x = false) l.
Proof. intros [H1 H2] HS Hn. unfold arr_min. now apply best_correct. Qed.

Lemma max_correct {V} (lt : V -> V -> bool) (m : list V) p n l : ordered lt -> slice m p n = Some l -> 0 < n ->
  exists x, arr_max V lt m p n = Some x /\ In x l /\ Forall (fun y => lt x y = false) l.
Proof.
  intros [H1 H2] HS Hn. unfold arr_max. apply (best_correct (fun y out => lt out y) m p n l); auto. intros x y z A B. now apply H2 with y.
Qed.

(** a search that stops at the first hit *)
Lemma equal_correct {V} (eq : V -> V -> bool) (m : list V) p n l v : slice m p n = Some l ->
  arr_equal V eq m p n v = Some (forallb (eq v) l).
Proof.
  intro HS. pose proof (slice_length _ _ _ _ HS) as HL. unfold arr_equal.
  match goal with |- for_ 0 n ?b true = _ => destruct (for_inv (fun i r => r = forallb (eq v) (firstn i l)) b 0 n true) as [r [E R]] end.
  - lia.
  - reflexivity.
  - intros i r Hi ->. destruct (slice_nth _ _ _ _ i HS) as [y [Ey Ny]]; [lia|].
    pose proof (firstn_last _ _ _ Ny) as F.
    rewrite F, forallb_app. cbn [forallb]. rewrite Ey. cbn [bind].
    destruct (forallb (eq v) (firstn i l)); eexists; (split; [reflexivity|]); cbn [andb]; rewrite ?andb_true_r; reflexivity.
  - rewrite E, R, <- HL, firstn_all. reflexivity.
Qed.

Lemma contains_correct (m : list Z) p n l v : slice m p n = Some l ->
  exists r, times_contains m p n v = Some r /\ (r = true <-> In v l).
Proof.
  intro HS. pose proof (slice_length _ _ _ _ HS) as HL. unfold times_contains.
  match goal with |- exists r, for_ 0 n ?b false = _ /\ _ => destruct (for_inv (fun i (r : bool) => r = true <-> In v (firstn i l)) b 0 n false) as [r [E R]] end.
  - lia.
  - cbn. intuition discriminate.
  - intros i r Hi HR. destruct (slice_nth _ _ _ _ i HS) as [y [Ey Ny]]; [lia|].
    pose proof (firstn_last _ _ _ Ny) as F.
    rewrite F, Ey. cbn [bind].
    destruct r.
    + exists true. split; [reflexivity|]. rewrite in_app_iff, <- HR. intuition.
    + exists (v =? y)%Z. split; [reflexivity|]. rewrite in_app_iff, <- HR, Z.eqb_eq. cbn [In]. intuition congruence.
  - exists r. split; [exact E|]. rewrite R, <- HL, firstn_all. reflexivity.
Qed.

Lemma zsum_snoc l y : zsum (l ++ [y]) = (zsum l + y)%Z.
Proof. unfold zsum. induction l; cbn [app fold_right]; lia. Qed.

Lemma times_sum_correct (m : list Z) p n l : slice m p n = Some l -> times_sum m p n = Some (u32 (zsum l)).
Proof.
  intro HS. pose proof (slice_length _ _ _ _ HS) as HL. unfold times_sum.
  match goal with |- for_ 0 n ?b 0%Z = _ => destruct (for_inv (fun i s => s = u32 (zsum (firstn i l))) b 0 n 0%Z) as [r [E R]] end.
  - lia.
  - reflexivity.
  - intros i s Hi ->. destruct (slice_nth _ _ _ _ i HS) as [y [Ey Ny]]; [lia|].
    pose proof (firstn_last _ _ _ Ny) as F.
    rewrite F, zsum_snoc, Ey. cbn [bind]. eexists. split; [reflexivity|].
    unfold t_add, u32. rewrite Zplus_mod_idemp_l. reflexivity.
  - rewrite E, R, <- HL, firstn_all. reflexivity.
Qed.

Lemma swap_correct {V} (m : list V) p n l i1 i2 x y : slice m p n = Some l ->
  nth_error l i1 = Some x -> nth_error l i2 = Some y ->
  exists m' l', arr_swap V m p i1 i2 = Some m' /\ m' = replace m p l' /\ Permutation l l' /\
  (forall j, nth_error l' j = if j =? i1 then Some y else if j =? i2 then Some x else nth_error l j).
Proof.
  intros HS H1 H2. pose proof (slice_length _ _ _ _ HS) as HL. pose proof (slice_bound _ _ _ _ HS) as HB.
  assert (I1 : i1 < n) by (apply nth_error_lt in H1; lia). assert (I2 : i2 < n) by (apply nth_error_lt in H2; lia).
  unfold arr_swap, aget. rewrite <- (slice_get _ _ _ _ _ HS I1), <- (slice_get _ _ _ _ _ HS I2), H1, H2. cbn [bind].
  destruct (aset_some m (p + i1) y) as [m1 E1]; [lia|]. rewrite E1. cbn [bind].
  destruct (aset_some m1 (p + i2) x) as [m2 E2]; [rewrite (aset_length _ _ _ _ E1); lia|]. rewrite E2.
  destruct (aset_some l i1 y) as [l1 F1]; [lia|].
  destruct (aset_some l1 i2 x) as [l2 F2]; [rewrite (aset_length _ _ _ _ F1); lia|].
  assert (L2 : length l2 = n) by (rewrite (aset_length _ _ _ _ F2), (aset_length _ _ _ _ F1); exact HL).
  assert (G : forall j, nth_error l2 j = if j =? i1 then Some y else if j =? i2 then Some x else nth_error l j).
  { intro j. rewrite (aset_get _ _ _ _ j F2), (aset_get _ _ _ _ j F1).
    destruct (Nat.eqb_spec j i1) as [Q1|], (Nat.eqb_spec j i2) as [Q2|]; try reflexivity. rewrite <- Q1 in H1. rewrite <- Q2 in H2. congruence. }
  exists m2, l2. splits; auto.
  - apply nth_error_ext. intro j. rewrite replace_get by lia. rewrite L2, (aset_get _ _ _ _ j E2), (aset_get _ _ _ _ j E1).
    destruct ((p <=? j) && (j <? p + n)) eqn:C.
    + rewrite G, (slice_get' _ _ _ _ _ HS). replace (p + (j - p)) with j by lia. bd; auto; try lia.
      assert (i1 = i2) by lia. subst i2. congruence.
    + bd; auto; lia.
  - apply Permutation_nth_error. split; [lia|].
    exists (fun j => if j =? i1 then i2 else if j =? i2 then i1 else j). split.
    + intros a b E. revert E. bd; lia.
    + intro j. rewrite G. bd; try congruence; auto.
Qed.

Lemma series_length {A} (add : A -> A -> A) summand count : forall start, length (series add start summand count) = count.
Proof. induction count; intro start; cbn; auto. Qed.
Lemma iter_shift {A} (f : A -> A) n x : Nat.iter n f (f x) = Nat.iter (S n) f x.
Proof. induction n as [|n IH]; [reflexivity|]. cbn. f_equal. exact IH. Qed.
Lemma series_nth {A} (add : A -> A -> A) summand count : forall start i, i < count ->
  nth_error (series add start summand count) i = Some (Nat.iter i (fun x => add x summand) start).
Proof.
  induction count as [|count IH]; intros start i Hi; [lia|]. destruct i as [|i]; [reflexivity|]. cbn [series nth_error]. rewrite IH by lia.
  f_equal. exact (iter_shift (fun x => add x summand) i start).
Qed.

Lemma additions_correct {V} (add : V -> V -> V) start summand count (m : list V) out : out + count <= length m ->
  arr_additions V add start summand count m out = Some (replace m out (series add start summand count)).
Proof.
  intro HB. unfold arr_additions.
  match goal with |- bind (for_ 0 count ?b _) _ = _ =>
    destruct (for_inv (fun i '(s, m') => s = Nat.iter i (fun x => add x summand) start /\ length m' = length m /\
      forall j, nth_error m' j = if (out <=? j) && (j <? out + i) then nth_error (series add start summand count) (j - out) else nth_error m j)
      b 0 count (start, m)) as [[s m'] [E [Hs [HL HG]]]] end.
  - lia.
  - splits; auto. intro j. bd; auto; lia.
  - intros i [s m'] Hi [-> [HL HG]]. destruct (aset_some m' (out + i) (Nat.iter i (fun x => add x summand) start)) as [m2 E2]; [lia|].
    rewrite E2. cbn [bind]. eexists. split; [reflexivity|]. cbn beta iota. splits.
    + reflexivity.
    + rewrite (aset_length _ _ _ _ E2). exact HL.
    + intro j. rewrite (aset_get _ _ _ _ j E2), HG. destruct (Nat.eqb_spec j (out + i)) as [->|].
      * replace (out + i - out) with i by lia. rewrite series_nth by lia. bd; auto; lia.
      * bd; auto; lia.
  - rewrite E. cbn [bind]. f_equal. apply nth_error_ext. intro j. rewrite HG, replace_get by (rewrite series_length; exact HB).
    rewrite series_length. reflexivity.
Qed.

Lemma times_series start summand i : Nat.iter i (fun x => t_add x summand) (u32 start) = u32 (start + Z.of_nat i * summand).
Proof.
  induction i as [|i IH]; [change (u32 start = u32 (start + 0)); f_equal; lia|].
  change (t_add (Nat.iter i (fun x => t_add x summand) (u32 start)) summand = u32 (start + Z.of_nat (S i) * summand)).
  rewrite IH. unfold t_add, u32. rewrite Zplus_mod_idemp_l. f_equal. lia.
Qed.
Lemma times_additions_correct start summand count (m : list Z) out : word start -> out + count <= length m ->
  arr_additions Z t_add start summand count m out = Some (replace m out (map (fun i => u32 (start + Z.of_nat i * summand)) (seq 0 count))).
Proof.
  intros W HB. rewrite additions_correct by exact HB. f_equal. f_equal. apply nth_error_ext. intro j. rewrite nth_error_map.
  destruct (Nat.lt_ge_cases j count) as [Hj|Hj].
  - rewrite series_nth by exact Hj. rewrite (nth_error_nth' (seq 0 count) 0) by (rewrite seq_length; exact Hj). rewrite seq_nth by exact Hj.
    cbn [option_map Nat.add]. rewrite <- times_series, u32_small by exact W. reflexivity.
  - replace (nth_error (seq 0 count) j) with (@None nat) by (symmetry; apply nth_error_None; rewrite seq_length; exact Hj). cbn.
    apply nth_error_None. rewrite series_length. exact Hj.
Qed.

Lemma range_correct {V} (m : list V) in_ start end_ out l : start <= end_ -> slice m (in_ + start) (end_ - start) = Some l ->
  out + (end_ - start) <= length m -> readable (in_ + start) out (end_ - start) ->
  arr_range V m in_ start end_ out = Some (replace m out l).
Proof.
  intros H HS HB HR. unfold arr_range. apply Nat.leb_le in H. rewrite H. cbn [need bind].
  rewrite (loop_map1 _ (fun x => x) m out (end_ - start) (in_ + start) l HB HS HR).
  - rewrite map_id. reflexivity.
  - intros i m0 x Hx. rewrite Nat.add_assoc, Hx. reflexivity.
Qed.
