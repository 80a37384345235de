From Verif Require Import Base CombModel SortModel SortSpec CombProofs CombEnumProofs SortProofs.
From Coq Require Import Sorting.Permutation Sorting.Sorted.
Open Scope nat_scope.

(** whatever is around the array: if sorting ends, the result is right *)
Section Returned.
Variable A : Type.
Variable less : A -> A -> bool.
Hypothesis order : strict_weak_order less.
Let le x y := less y x = false.

Lemma scan_up_result fuel (a : list A) pivot p l l' : zget a pivot = Some p -> scan_up A less fuel a pivot l = Some l' ->
  (l <= l')%Z /\ (exists x, zget a l' = Some x /\ le p x) /\ (forall i z, (l <= i < l')%Z -> zget a i = Some z -> less z p = true).
Proof.
  intros hp. revert l. induction fuel; intros l; cbn [scan_up]; [discriminate|].
  destruct (zget a l) as [x|] eqn:hx; [|discriminate]. rewrite hp. cbn [bind]. destruct (less x p) eqn:e; intros h.
  - destruct (IHfuel _ h) as (h1 & h2 & h3). splits; auto; [lia|]. intros i z hi hz. destruct (Z.eq_dec i l) as [->|].
    + congruence.
    + apply (h3 i); auto. lia.
  - injection h as <-. splits; [lia|eauto|]. intros. lia.
Qed.
Lemma scan_down_result fuel (a : list A) pivot p r r' : zget a pivot = Some p -> scan_down A less fuel a pivot r = Some r' ->
  (r' <= r)%Z /\ (exists x, zget a r' = Some x /\ le x p) /\ (forall i z, (r' < i <= r)%Z -> zget a i = Some z -> less p z = true).
Proof.
  intros hp. revert r. induction fuel; intros r; cbn [scan_down]; [discriminate|]. rewrite hp. cbn [bind].
  destruct (zget a r) as [x|] eqn:hx; [|discriminate]. cbn [bind]. destruct (less p x) eqn:e; intros h.
  - destruct (IHfuel _ h) as (h1 & h2 & h3). splits; auto; [lia|]. intros i z hi hz. destruct (Z.eq_dec i r) as [->|].
    + congruence.
    + apply (h3 i); auto. lia.
  - injection h as <-. splits; [lia|eauto|]. intros. lia.
Qed.

Lemma partition_result fuel (a : list A) pivot p left right l r b l2 r2 :
  (0 <= left)%Z -> (right < Z.of_nat (length a))%Z -> (left <= pivot <= right)%Z -> zget a pivot = Some p ->
  ((l = left /\ r = right) \/ split_at A less a p left right l r) ->
  partition A less fuel a pivot l r = Some (b, l2, r2) ->
  rearranged left right a b /\ split_at A less b p left right l2 r2 /\ (r2 < l2)%Z.
Proof.
  revert a pivot l r. induction fuel; intros a pivot l r h0 hn hpv hp hst; [discriminate|].
  cbn [partition].
  destruct (scan_up A less _ a pivot l) as [l'|] eqn:e1; [|discriminate]. cbn [bind].
  destruct (scan_down A less _ a pivot r) as [r'|] eqn:f1; [|discriminate]. cbn [bind].
  destruct (scan_up_result _ _ _ _ _ _ hp e1) as (e2 & (xl & e3 & e4) & e5).
  destruct (scan_down_result _ _ _ _ _ _ hp f1) as (f2 & (xr & f3 & f4) & f5).
  assert (hlb : (left <= l)%Z) by (destruct hst as [[-> ->]|hs]; [lia|destruct hs; lia]).
  assert (hrb : (r <= right)%Z) by (destruct hst as [[-> ->]|hs]; [lia|destruct hs; lia]).
  assert (hA : forall i x, (left <= i < l')%Z -> (i <= right)%Z -> zget a i = Some x -> le x p).
  { intros i x hi1 hi2 hx. destruct (Z_lt_ge_dec i l) as [c|c].
    - destruct hst as [[-> ->]|(s1 & s2 & s3 & s4)]; [lia|]. apply (s3 i); auto; lia.
    - apply less_le; auto. apply (e5 i); auto; lia. }
  assert (hB : forall i x, (r' < i <= right)%Z -> (left <= i)%Z -> zget a i = Some x -> le p x).
  { intros i x hi1 hi2 hx. destruct (Z_lt_ge_dec r i) as [c|c].
    - destruct hst as [[-> ->]|(s1 & s2 & s3 & s4)]; [lia|]. apply (s4 i); auto; lia.
    - apply less_le; auto. apply (f5 i); auto; lia. }
  assert (hpp : less p p = false) by (apply (le_refl A less order)).
  destruct (Z.ltb_spec r' l') as [c|c].
  - intros h. injection h as <- <- <-. splits; auto using rearranged_refl.
    destruct hst as [[-> ->]|(s1 & s2 & s3 & s4)].
    + exfalso. destruct (Z_lt_ge_dec pivot l') as [d|d].
      * rewrite (e5 pivot p) in hpp; auto; [discriminate|lia].
      * rewrite (f5 pivot p) in hpp; auto; [discriminate|lia].
    + red. splits; auto; lia.
  - destruct (zswap_rearranged left right a l' r') as (a' & w1 & w2); auto; try lia.
    rewrite w1. cbn [bind].
    set (pv := if (pivot =? l')%Z then r' else if (pivot =? r')%Z then l' else pivot).
    pose proof (zswap_get _ _ _ _ _ _ pv e3 f3 w1) as g1.
    assert (hpv' : zget a' pv = Some p /\ (left <= pv <= right)%Z).
    { subst pv. rewrite g1. destruct (Z.eqb_spec pivot l').
      - rewrite Z.eqb_refl. split; [congruence|lia].
      - destruct (Z.eqb_spec pivot r').
        + rewrite Z.eqb_refl. destruct (Z.eqb_spec l' r'); [lia|]. split; [congruence|lia].
        + destruct (Z.eqb_spec pivot r'); [lia|]. destruct (Z.eqb_spec pivot l'); [lia|]. auto. }
    destruct hpv' as [hpv1 hpv2]. intros h.
    destruct (IHfuel a' pv (1 + l')%Z (r' - 1)%Z) as (q1 & q2 & q3); auto.
    + destruct w2 as (-> & _). auto.
    + right. red. splits; try lia.
      * intros i x hi1 hi2. rewrite (zswap_get _ _ _ _ _ _ i e3 f3 w1).
        destruct (Z.eqb_spec i r').
        -- intros k. injection k as <-. assert (l' = r') by lia. assert (xl = xr) by congruence. subst xl. auto.
        -- destruct (Z.eqb_spec i l'); [intros k; injection k as <-; auto|]. apply hA; lia.
      * intros i x hi1 hi2. rewrite (zswap_get _ _ _ _ _ _ i e3 f3 w1).
        destruct (Z.eqb_spec i r'); [intros k; injection k as <-; auto|].
        destruct (Z.eqb_spec i l').
        -- intros k. injection k as <-. assert (l' = r') by lia. assert (xl = xr) by congruence. subst xr. auto.
        -- apply hB; lia.
    + splits; auto. eapply rearranged_trans; eauto.
Qed.

Lemma quicksort_rec_result fuel (a : list A) left right b :
  (0 <= left)%Z -> (right < Z.of_nat (length a))%Z -> quicksort_rec A less fuel a left right = Some b ->
  rearranged left right a b /\ sorted_range A less b left right.
Proof.
  revert a left right b. induction fuel; intros a left right b0 h0 hn; cbn [quicksort_rec];
    (destruct (Z.leb_spec right left) as [c|c];
      [intros h; injection h as <-; split; auto using rearranged_refl; intros i j x y; lia|]); [discriminate|].
  set (pv := (left + (right - left) / 2)%Z).
  assert (hpv : (left <= pv <= right)%Z).
  { subst pv. assert (0 <= (right - left) / 2)%Z by (apply Z.div_pos; lia).
    assert ((right - left) / 2 <= right - left)%Z by (apply Z.div_le_upper_bound; lia). lia. }
  clearbody pv. destruct (zget_in a pv) as [p hp]; [lia|].
  destruct (partition A less (S (length a)) a pv left right) as [[[b l] r]|] eqn:e1; [|discriminate].
  destruct (partition_result _ _ _ p left right _ _ _ _ _ h0 hn hpv hp (or_introl (conj eq_refl eq_refl)) e1) as (e2 & e3 & e4).
  cbn [bind]. destruct e3 as (s1 & s2 & s3 & s4).
  pose proof (proj1 e2) as elen.
  destruct (quicksort_rec A less fuel b left r) as [b1|] eqn:f1; [|discriminate]. cbn [bind]. intros q1.
  destruct (IHfuel b left r b1) as (f2 & f3); auto; try lia.
  pose proof (proj1 f2) as flen.
  pose proof f2 as (_ & _ & f2o & f2i).
  assert (hA : forall i x, (left <= i < l)%Z -> (i <= right)%Z -> zget b1 i = Some x -> le x p).
  { intros i x hi1 hi2 hx. destruct (Z_le_gt_dec i r) as [d|d].
    - destruct (f2i i) as (j & hj & ej); [lia|]. apply (s3 j); try lia. congruence.
    - apply (s3 i); auto. rewrite <- f2o; auto; lia. }
  assert (hB : forall i x, (r < i <= right)%Z -> (left <= i)%Z -> zget b1 i = Some x -> le p x).
  { intros i x hi1 hi2. rewrite f2o by lia. apply s4; auto. }
  destruct (IHfuel b1 l right b0) as (q2 & q3); auto; try lia.
  split; auto.
  - eapply rearranged_trans; [exact e2|]. eapply rearranged_trans.
    + apply (rearranged_widen left r); [lia|lia|exact f2].
    + apply (rearranged_widen l right); [lia|lia|exact q2].
  - destruct q2 as (_ & _ & q2o & q2i).
    assert (hA' : forall i x, (left <= i < l)%Z -> (i <= right)%Z -> zget b0 i = Some x -> le x p).
    { intros i x hi1 hi2. rewrite q2o by lia. apply hA; auto. }
    assert (hB' : forall i x, (r < i <= right)%Z -> (left <= i)%Z -> zget b0 i = Some x -> le p x).
    { intros i x hi1 hi2 hx. destruct (Z_le_gt_dec l i) as [d|d].
      - destruct (q2i i) as (j & hj & ej); [lia|]. apply (hB j); try lia. congruence.
      - apply (hB i); auto. rewrite <- q2o; auto. lia. }
    intros i j x y hi1 hj1 hx hy. destruct (Z_le_gt_dec j r) as [d|d].
    + apply (f3 i j); try lia; rewrite <- q2o; auto; lia.
    + destruct (Z_lt_ge_dec i l) as [d'|d'].
      * apply (le_trans A less order) with p; [apply (hA' i)|apply (hB' j)]; auto; lia.
      * apply (q3 i j); auto; lia.
Qed.

Lemma sorted_of_indices (l : list A) : (forall i j x y, i < j -> nth_error l i = Some x -> nth_error l j = Some y -> le x y) -> ordered less l.
Proof.
  unfold ordered. induction l as [|h t IH]; intros H; constructor.
  - apply IH. intros i j x y hij hx hy. apply (H (S i) (S j)); auto. lia.
  - apply Forall_forall. intros x hx. apply In_nth_error in hx. destruct hx as [n hn]. apply (H 0 (S n)); auto. lia.
Qed.
Lemma nth_app_mid (pre mid post : list A) i : i < length mid -> nth_error (pre ++ mid ++ post) (length pre + i) = nth_error mid i.
Proof. intros h. rewrite nth_error_app2 by lia. rewrite nth_error_app1 by lia. f_equal. lia. Qed.
Lemma rearranged_lists (pre mid post b : list A) :
  rearranged (Z.of_nat (length pre)) (Z.of_nat (length pre) + Z.of_nat (length mid) - 1) (pre ++ mid ++ post) b ->
  sorted_range A less b (Z.of_nat (length pre)) (Z.of_nat (length pre) + Z.of_nat (length mid) - 1) ->
  exists mid', b = pre ++ mid' ++ post /\ sorting_of less mid mid'.
Proof.
  intros (h1 & h2 & h3 & h4) hs. rewrite !app_length in h1.
  exists (firstn (length mid) (skipn (length pre) b)).
  assert (hb : b = pre ++ firstn (length mid) (skipn (length pre) b) ++ post).
  { apply nth_error_ext. intros i.
    assert (hl : length (firstn (length mid) (skipn (length pre) b)) = length mid) by (rewrite firstn_length, skipn_length; lia).
    destruct (Nat.lt_ge_cases i (length pre)) as [c|c].
    - rewrite (nth_error_app1 pre) by lia. specialize (h3 (Z.of_nat i)). rewrite !zget_nat in h3. rewrite h3 by lia.
      rewrite nth_error_app1 by lia. reflexivity.
    - rewrite (nth_error_app2 pre) by lia. destruct (Nat.lt_ge_cases i (length pre + length mid)) as [d|d].
      + rewrite nth_error_app1 by lia. rewrite nth_error_firstn by lia. rewrite nth_error_skipn. f_equal. lia.
      + rewrite nth_error_app2 by lia. specialize (h3 (Z.of_nat i)). rewrite !zget_nat in h3. rewrite h3 by lia.
        rewrite nth_error_app2 by lia. rewrite nth_error_app2 by lia. f_equal. lia. }
  split; [exact hb|]. split.
  - rewrite hb in h2. apply Permutation_app_inv_l in h2. apply Permutation_app_inv_r in h2. exact h2.
  - apply sorted_of_indices. intros i j x y hij hx hy.
    assert (hj : j < length mid) by (apply nth_error_lt in hy; rewrite firstn_length in hy; lia).
    rewrite nth_error_firstn, nth_error_skipn in hx, hy by lia.
    apply (hs (Z.of_nat (length pre + i)) (Z.of_nat (length pre + j)) x y); try lia; rewrite zget_nat; assumption.
Qed.

Lemma quicksort_returns_sorted (pre mid post b : list A) :
  quicksort A less (pre ++ mid ++ post) (Z.of_nat (length pre)) (Z.of_nat (length pre) + Z.of_nat (length mid) - 1) = Some b ->
  exists mid', b = pre ++ mid' ++ post /\ sorting_of less mid mid'.
Proof.
  intros h. unfold quicksort in h. apply quicksort_rec_result in h; [|lia|rewrite !app_length; lia].
  destruct h as [h1 h2]. eapply rearranged_lists; eauto.
Qed.

Lemma quicksort_sorts (pre mid post : list A) lo hi :
  In lo pre -> In hi post -> Forall (fun x => less x lo = false /\ less hi x = false) mid ->
  exists mid', quicksort A less (pre ++ mid ++ post) (Z.of_nat (length pre)) (Z.of_nat (length pre) + Z.of_nat (length mid) - 1) = Some (pre ++ mid' ++ post) /\
    sorting_of less mid mid'.
Proof.
  intros hlo hhi hm.
  assert (hx : forall i x, (Z.of_nat (length pre) <= i <= Z.of_nat (length pre) + Z.of_nat (length mid) - 1)%Z ->
    zget (pre ++ mid ++ post) i = Some x -> less x lo = false /\ less hi x = false).
  { intros i x hi1 hx. rewrite Forall_forall in hm. apply hm. replace i with (Z.of_nat (length pre + Z.to_nat (i - Z.of_nat (length pre)))) in hx by lia.
    rewrite zget_nat, nth_app_mid in hx by lia. eapply nth_error_In; eauto. }
  destruct (quicksort_rec_sorts A less order (S (length (pre ++ mid ++ post))) (pre ++ mid ++ post)
    (Z.of_nat (length pre)) (Z.of_nat (length pre) + Z.of_nat (length mid) - 1)) as (b & e1 & e2 & e3).
  - lia.
  - rewrite !app_length. lia.
  - intros _. split.
    + apply In_nth_error in hlo. destruct hlo as [n hn]. exists (Z.of_nat n), lo. pose proof (nth_error_lt _ _ _ hn).
      split; [lia|]. split; [rewrite zget_nat, nth_error_app1; auto|]. intros i x hi1 hx1. apply (hx i x); auto.
    + apply In_nth_error in hhi. destruct hhi as [n hn]. exists (Z.of_nat (length pre + (length mid + n))), hi. pose proof (nth_error_lt _ _ _ hn).
      split; [lia|]. split; [rewrite zget_nat, nth_error_app2, nth_error_app2 by lia; rewrite <- hn; f_equal; lia|].
      intros i x hi1 hx1. apply (hx i x); auto.
  - rewrite !app_length. lia.
  - destruct (rearranged_lists _ _ _ _ e2 e3) as (mid' & -> & hs). exists mid'. split; auto.
Qed.
End Returned.

Lemma quicksort_reads_before {A} (less : A -> A -> bool) x y : less x x = false -> less x y = true -> less y x = false -> quicksort A less [x; y] 0 1 = None.
Proof.
  intros hx h h'.
  assert (z0 : zget [x; y] 0 = Some x) by reflexivity. assert (z1 : zget [x; y] 1 = Some y) by reflexivity.
  assert (zm : zget [x; y] (0 - 1) = None) by reflexivity.
  assert (hu : forall n, scan_up A less (S n) [x; y] 0 0 = Some 0%Z) by (intros n; cbn [scan_up]; rewrite z0; cbn [bind]; rewrite hx; reflexivity).
  assert (hu1 : forall n, scan_up A less (S n) [x; y] 0 (1 + 0) = Some 1%Z).
  { intros n. cbn [scan_up]. change (1 + 0)%Z with 1%Z. rewrite z0, z1. cbn [bind]. rewrite h'. reflexivity. }
  assert (hd : forall n, scan_down A less (S (S n)) [x; y] 0 1 = Some 0%Z).
  { intros n. cbn [scan_down]. change (1 - 1)%Z with 0%Z. rewrite z0, z1. cbn [bind]. rewrite h, hx. reflexivity. }
  assert (hdm : forall n, scan_down A less (S n) [x; y] 0 (0 - 1) = None).
  { intros n. cbn [scan_down]. rewrite z0, zm. reflexivity. }
  assert (hsw : zswap [x; y] 0 0 = Some [x; y]) by reflexivity.
  unfold quicksort. cbn [quicksort_rec length]. change (1 <=? 0)%Z with false. change (0 + (1 - 0) / 2)%Z with 0%Z. cbv iota.
  cbn [partition length]. rewrite hu, hd. cbn [bind]. change (0 <? 0)%Z with false. change (0 =? 0)%Z with true. cbv iota zeta.
  rewrite hsw. cbn [bind partition length]. rewrite hu1, hdm. reflexivity.
Qed.
