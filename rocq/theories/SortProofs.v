From Verif Require Import Base CombModel SortModel SortSpec CombProofs CombEnumProofs.
From Coq Require Import Sorting.Permutation Sorting.Sorted.
Open Scope nat_scope.
Ltac hsplits := lazymatch goal with |- _ /\ _ => splits | |- _ => red; splits end.

Lemma zget_some {A} (a : list A) i x : zget a i = Some x -> (0 <= i < Z.of_nat (length a))%Z.
Proof.
  unfold zget. destruct (Z.ltb_spec i 0); [discriminate|]. intros h. apply nth_error_lt in h. lia.
Qed.
Lemma zget_in {A} (a : list A) i : (0 <= i < Z.of_nat (length a))%Z -> exists x, zget a i = Some x.
Proof.
  intros h. unfold zget. destruct (Z.ltb_spec i 0); [lia|]. apply nth_error_some. lia.
Qed.
Lemma zget_nat {A} (a : list A) i : zget a (Z.of_nat i) = nth_error a i.
Proof. unfold zget. destruct (Z.ltb_spec (Z.of_nat i) 0); [lia|]. rewrite Nat2Z.id. reflexivity. Qed.
Lemma zset_get {A} (a a' : list A) i x j :
  zset a i x = Some a' -> zget a' j = if (j =? i)%Z then Some x else zget a j.
Proof.
  unfold zset, zget. destruct (Z.ltb_spec i 0); [discriminate|]. intros h.
  destruct (Z.ltb_spec j 0).
  - destruct (Z.eqb_spec j i); [lia|]. reflexivity.
  - unfold aget. rewrite (aset_get _ _ _ _ _ h). destruct (Z.eqb_spec j i).
    + subst. rewrite Nat.eqb_refl. reflexivity.
    + destruct (Nat.eqb_spec (Z.to_nat j) (Z.to_nat i)); [lia|]. reflexivity.
Qed.
Lemma zswap_swap {A} (a : list A) i j : (0 <= i)%Z -> (0 <= j)%Z -> zswap a i j = swap a (Z.to_nat i) (Z.to_nat j).
Proof.
  intros hi hj. unfold zswap, zget, zset. destruct (Z.ltb_spec i 0); [lia|]. destruct (Z.ltb_spec j 0); [lia|]. reflexivity.
Qed.
Lemma zswap_get {A} (a a' : list A) i j x y k : zget a i = Some x -> zget a j = Some y -> zswap a i j = Some a' ->
  zget a' k = if (k =? j)%Z then Some x else if (k =? i)%Z then Some y else zget a k.
Proof.
  intros hx hy h. unfold zswap in h. rewrite hx, hy in h. cbn [bind] in h.
  destruct (zset a i y) as [b|] eqn:e; [|discriminate]. cbn [bind] in h.
  rewrite (zset_get _ _ _ _ k h). rewrite (zset_get _ _ _ _ k e). reflexivity.
Qed.

(** [b] is [a] with elements in [left..right] exchanged among themselves *)
Definition rearranged {A} (left right : Z) (a b : list A) : Prop :=
  length b = length a /\ Permutation a b /\
  (forall i, (i < left \/ right < i)%Z -> zget b i = zget a i) /\
  (forall i, (left <= i <= right)%Z -> exists j, (left <= j <= right)%Z /\ zget b i = zget a j).
Lemma rearranged_refl {A} left right (a : list A) : rearranged left right a a.
Proof. repeat split; auto. intros i h. exists i. auto. Qed.
Lemma rearranged_trans {A} left right (a b c : list A) : rearranged left right a b -> rearranged left right b c -> rearranged left right a c.
Proof.
  intros (h1 & h2 & h3 & h4) (k1 & k2 & k3 & k4). hsplits.
  - lia.
  - eapply Permutation_trans; eauto.
  - intros i h. rewrite k3, h3; auto.
  - intros i h. destruct (k4 i h) as (j & hj & e). destruct (h4 j hj) as (j' & hj' & e'). exists j'. split; auto. congruence.
Qed.
Lemma rearranged_widen {A} left right left' right' (a b : list A) : (left' <= left)%Z -> (right <= right')%Z ->
  rearranged left right a b -> rearranged left' right' a b.
Proof.
  intros hl hr (h1 & h2 & h3 & h4). hsplits; auto.
  - intros i h. apply h3. lia.
  - intros i h. destruct (Z_lt_ge_dec i left) as [c|c]; [|destruct (Z_lt_ge_dec right i) as [d|d]].
    + exists i. split; auto.
    + exists i. split; auto.
    + destruct (h4 i) as (j & hj & e); [lia|]. exists j. split; [lia|auto].
Qed.
Lemma zswap_rearranged {A} left right (a : list A) i j : (0 <= left <= i)%Z -> (i <= right)%Z -> (left <= j <= right)%Z ->
  (right < Z.of_nat (length a))%Z -> exists b, zswap a i j = Some b /\ rearranged left right a b.
Proof.
  intros hi hi' hj hn. rewrite zswap_swap by lia.
  destruct (swap_some a (Z.to_nat i) (Z.to_nat j)) as [b hb]; [lia|lia|]. exists b. split; auto.
  assert (hz : zswap a i j = Some b) by (rewrite zswap_swap by lia; exact hb).
  destruct (zget_in a i) as [x hx]; [lia|]. destruct (zget_in a j) as [y hy]; [lia|].
  hsplits.
  - symmetry. apply Permutation_length. eapply swap_perm; eauto.
  - eapply swap_perm; eauto.
  - intros k hk. rewrite (zswap_get _ _ _ _ _ _ k hx hy hz).
    destruct (Z.eqb_spec k j); [lia|]. destruct (Z.eqb_spec k i); [lia|]. reflexivity.
  - intros k hk. rewrite (zswap_get _ _ _ _ _ _ k hx hy hz).
    destruct (Z.eqb_spec k j); [exists i; split; [lia|auto]|]. destruct (Z.eqb_spec k i); [exists j; split; [lia|auto]|].
    exists k. auto.
Qed.

Section Quicksort.
Variable A : Type.
Variable less : A -> A -> bool.
Hypothesis order : strict_weak_order less.
Let le x y := less y x = false.
Lemma le_trans x y z : le x y -> le y z -> le x z.
Proof. destruct order as [_ h]. unfold le. intros. eapply h; eauto. Qed.
Lemma less_le x y : less x y = true -> le x y.
Proof. destruct order as [h _]. apply h. Qed.
Lemma le_refl x : le x x.
Proof. unfold le. destruct (less x x) eqn:e; auto. pose proof (less_le _ _ e) as h. unfold le in h. congruence. Qed.

Lemma scan_up_stops fuel (a : list A) pivot p l s y : zget a pivot = Some p -> (0 <= l <= s)%Z -> zget a s = Some y -> le p y ->
  (s - l < Z.of_nat fuel)%Z ->
  exists l' x, scan_up A less fuel a pivot l = Some l' /\ (l <= l' <= s)%Z /\ zget a l' = Some x /\ le p x /\
    (forall i z, (l <= i < l')%Z -> zget a i = Some z -> le z p).
Proof.
  revert l. induction fuel; intros l hp hl hs hy hf; [lia|]. pose proof (zget_some _ _ _ hs) as hb.
  cbn [scan_up]. destruct (zget_in a l) as [x hx]; [lia|]. rewrite hx, hp. cbn [bind]. destruct (less x p) eqn:e.
  - assert (l <> s). { intros ->. rewrite hs in hx. injection hx as <-. unfold le in hy. congruence. }
    destruct (IHfuel (1 + l)%Z) as (l' & x' & h1 & h2 & h3 & h4 & h5); auto; try lia.
    exists l', x'. hsplits; auto; try lia. intros i z hi hz. destruct (Z.eq_dec i l) as [->|].
    + rewrite hx in hz. injection hz as <-. apply less_le. exact e.
    + apply (h5 i); auto. lia.
  - exists l, x. hsplits; auto; lia.
Qed.
Lemma scan_down_stops fuel (a : list A) pivot p r s y : zget a pivot = Some p -> (s <= r < Z.of_nat (length a))%Z -> zget a s = Some y -> le y p ->
  (r - s < Z.of_nat fuel)%Z ->
  exists r' x, scan_down A less fuel a pivot r = Some r' /\ (s <= r' <= r)%Z /\ zget a r' = Some x /\ le x p /\
    (forall i z, (r' < i <= r)%Z -> zget a i = Some z -> le p z).
Proof.
  revert r. induction fuel; intros r hp hl hs hy hf; [lia|]. pose proof (zget_some _ _ _ hs) as hb.
  cbn [scan_down]. destruct (zget_in a r) as [x hx]; [lia|]. rewrite hx, hp. cbn [bind]. destruct (less p x) eqn:e.
  - assert (r <> s). { intros ->. rewrite hs in hx. injection hx as <-. unfold le in hy. congruence. }
    destruct (IHfuel (r - 1)%Z) as (l' & x' & h1 & h2 & h3 & h4 & h5); auto; try lia.
    exists l', x'. hsplits; auto; try lia. intros i z hi hz. destruct (Z.eq_dec i r) as [->|].
    + rewrite hx in hz. injection hz as <-. apply less_le. exact e.
    + apply (h5 i); auto. lia.
  - exists r, x. hsplits; auto; lia.
Qed.

Definition low_guard (a : list A) left right := exists g lo, (0 <= g < left)%Z /\ zget a g = Some lo /\
  (forall i x, (left <= i <= right)%Z -> zget a i = Some x -> le lo x).
Definition high_guard (a : list A) left right := exists g hi, (right < g)%Z /\ zget a g = Some hi /\
  (forall i x, (left <= i <= right)%Z -> zget a i = Some x -> le x hi).
Lemma low_guard_rearranged a b left right : rearranged left right a b -> low_guard a left right -> low_guard b left right.
Proof.
  intros (h1 & h2 & h3 & h4) (g & lo & k1 & k2 & k3). exists g, lo. hsplits; auto; try lia.
  - rewrite h3; auto. lia.
  - intros i x hi hx. destruct (h4 i hi) as (j & hj & e). apply (k3 j); auto. congruence.
Qed.
Lemma high_guard_rearranged a b left right : rearranged left right a b -> high_guard a left right -> high_guard b left right.
Proof.
  intros (h1 & h2 & h3 & h4) (g & lo & k1 & k2 & k3). exists g, lo. hsplits; auto; try lia.
  - rewrite h3; auto.
  - intros i x hi hx. destruct (h4 i hi) as (j & hj & e). apply (k3 j); auto. congruence.
Qed.

(** after a pass of the loop *)
Definition split_at (a : list A) (p : A) left right l r :=
  (left < l)%Z /\ (r < right)%Z /\
  (forall i x, (left <= i < l)%Z -> (i <= right)%Z -> zget a i = Some x -> le x p) /\
  (forall i x, (r < i <= right)%Z -> (left <= i)%Z -> zget a i = Some x -> le p x).

Lemma partition_ends fuel (a : list A) pivot p left right l r :
  (0 <= left)%Z -> (right < Z.of_nat (length a))%Z -> (left <= pivot <= right)%Z -> zget a pivot = Some p ->
  low_guard a left right -> high_guard a left right ->
  ((l = left /\ r = right) \/ (split_at a p left right l r /\ (left - 1 <= r)%Z /\ (l <= right + 1)%Z)) ->
  (r - l + 2 < 2 * Z.of_nat fuel)%Z ->
  (l <= r + 2)%Z ->
  exists b l' r', partition A less fuel a pivot l r = Some (b, l', r') /\ rearranged left right a b /\ split_at b p left right l' r' /\ (r' < l')%Z.
Proof.
  revert a pivot l r. induction fuel; intros a pivot l r h0 hn hpv hp hlo hhi hst hf hlr; [lia|].
  cbn [partition].
  destruct hlo as (gl & lo & gl1 & gl2 & gl3) eqn:elo. clear elo. destruct hhi as (gh & hi & gh1 & gh2 & gh3) eqn:ehi. clear ehi.
  assert (hup : exists s y, (l <= s)%Z /\ zget a s = Some y /\ le p y /\ ((l = left /\ r = right) -> s = pivot) /\ ((l <= r + 1)%Z -> (l <> left \/ r <> right) -> s = r + 1)%Z).
  { destruct hst as [[-> ->]|(hs & hb1 & hb2)].
    - exists pivot, p. hsplits; auto; [lia|apply le_refl|]. lia.
    - destruct hs as (s1 & s2 & s3 & s4). destruct (Z_le_gt_dec l (r + 1)) as [c|c].
      + destruct (zget_in a (r + 1)) as [y hy]; [lia|]. exists (r + 1)%Z, y. hsplits; auto; [|lia].
        apply (s4 (r + 1)%Z); auto; lia.
      + destruct (Z_le_gt_dec l right) as [d|d].
        * destruct (zget_in a l) as [y hy]; [lia|]. exists l, y. hsplits; auto; [lia| |lia|lia]. apply (s4 l); auto; lia.
        * exists gh, hi. hsplits; auto; [lia| |lia|lia]. apply (gh3 pivot); auto. }
  destruct hup as (s & y & u1 & u2 & u3 & u4 & u5). pose proof (zget_some _ _ _ u2) as u6.
  assert (hl0 : (0 <= l)%Z) by (destruct hst as [[-> ->]|(hs & hb1 & hb2)]; [lia|destruct hs; lia]).
  destruct (scan_up_stops (S (length a)) a pivot p l s y) as (l' & xl & e1 & e2 & e3 & e4 & e5); auto; try lia.
  rewrite e1. cbn [bind].
  assert (hdn : exists t z, (t <= r)%Z /\ zget a t = Some z /\ le z p /\ ((l = left /\ r = right) -> t = pivot) /\ ((l <= r + 1)%Z -> (l <> left \/ r <> right) -> t = l - 1)%Z).
  { destruct hst as [[-> ->]|(hs & hb1 & hb2)].
    - exists pivot, p. hsplits; auto; [lia|apply le_refl|lia].
    - destruct hs as (s1 & s2 & s3 & s4). destruct (Z_le_gt_dec l (r + 1)) as [c|c].
      + destruct (zget_in a (l - 1)) as [z hz]; [lia|]. exists (l - 1)%Z, z. hsplits; auto; [lia| |lia].
        apply (s3 (l - 1)%Z); auto; lia.
      + destruct (Z_le_gt_dec left r) as [d|d].
        * destruct (zget_in a r) as [z hz]; [lia|]. exists r, z. hsplits; auto; [lia| |lia|lia]. apply (s3 r); auto; lia.
        * exists gl, lo. hsplits; auto; [lia| |lia|lia]. apply (gl3 pivot); auto. }
  destruct hdn as (t & z & v1 & v2 & v3 & v4 & v5). pose proof (zget_some _ _ _ v2) as v6.
  assert (hrn : (r < Z.of_nat (length a))%Z) by (destruct hst as [[-> ->]|(hs & hb1 & hb2)]; [lia|destruct hs; lia]).
  destruct (scan_down_stops (S (length a)) a pivot p r t z) as (r' & xr & f1 & f2 & f3 & f4 & f5); auto; try lia.
  rewrite f1. cbn [bind].
  assert (hA : forall i x, (left <= i < l')%Z -> (i <= right)%Z -> zget a i = Some x -> le x p).
  { intros i x hi1 hi2 hx. destruct (Z_lt_ge_dec i l) as [c|c].
    - destruct hst as [[-> ->]|((s1 & s2 & s3 & s4) & hb1 & hb2)]; [lia|]. apply (s3 i); auto; lia.
    - apply (e5 i); auto; lia. }
  assert (hB : forall i x, (r' < i <= right)%Z -> (left <= i)%Z -> zget a i = Some x -> le p x).
  { intros i x hi1 hi2 hx. destruct (Z_lt_ge_dec r i) as [c|c].
    - destruct hst as [[-> ->]|((s1 & s2 & s3 & s4) & hb1 & hb2)]; [lia|]. apply (s4 i); auto; lia.
    - apply (f5 i); auto; lia. }
  destruct (Z.ltb_spec r' l') as [c|c].
  - exists a, l', r'. hsplits; auto using rearranged_refl.
    destruct hst as [[-> ->]|((s1 & s2 & s3 & s4) & hb1 & hb2)].
    + exfalso. specialize (u4 (conj eq_refl eq_refl)). specialize (v4 (conj eq_refl eq_refl)). lia.
    + hsplits; auto; lia.
  - assert (hin : (left <= l' <= right)%Z /\ (left <= r' <= right)%Z).
    { destruct hst as [[-> ->]|((s1 & s2 & s3 & s4) & hb1 & hb2)]; lia. }
    destruct hin as [hin1 hin2].
    destruct (zswap_rearranged left right a l' r') as (b & w1 & w2); auto; try lia.
    rewrite w1. cbn [bind].
    set (pv := if (pivot =? l')%Z then r' else if (pivot =? r')%Z then l' else pivot).
    pose proof (zswap_get _ _ _ _ _ _ pv e3 f3 w1) as g1.
    assert (hpv' : zget b pv = Some p /\ (left <= pv <= right)%Z).
    { subst pv. rewrite g1. destruct (Z.eqb_spec pivot l').
      - rewrite Z.eqb_refl. split; [congruence|lia].
      - destruct (Z.eqb_spec pivot r').
        + rewrite Z.eqb_refl. destruct (Z.eqb_spec l' r'); [lia|]. split; [congruence|lia].
        + destruct (Z.eqb_spec pivot r'); [lia|]. destruct (Z.eqb_spec pivot l'); [lia|]. auto. }
    destruct hpv' as [hpv1 hpv2].
    destruct (IHfuel b pv (1 + l')%Z (r' - 1)%Z) as (b' & l2 & r2 & q1 & q2 & q3 & q4); auto.
    + destruct w2 as (-> & _). auto.
    + eapply low_guard_rearranged; eauto.
    + eapply high_guard_rearranged; eauto.
    + right. split; [|lia]. hsplits; try lia.
      * intros i x hi1 hi2. rewrite (zswap_get _ _ _ _ _ _ i e3 f3 w1).
        destruct (Z.eqb_spec i r').
        -- intros h. injection h as <-. assert (l' = r') by lia. assert (xl = xr) by congruence. subst xl. auto.
        -- destruct (Z.eqb_spec i l'); [intros h; injection h as <-; auto|]. apply hA; lia.
      * intros i x hi1 hi2. rewrite (zswap_get _ _ _ _ _ _ i e3 f3 w1).
        destruct (Z.eqb_spec i r'); [intros h; injection h as <-; auto|].
        destruct (Z.eqb_spec i l').
        -- intros h. injection h as <-. assert (l' = r') by lia. assert (xl = xr) by congruence. subst xr. auto.
        -- apply hB; lia.
    + lia.
    + lia.
    + exists b', l2, r2. hsplits; auto. eapply rearranged_trans; eauto.
Qed.

Definition sorted_range (a : list A) left right :=
  forall i j x y, (left <= i < j)%Z -> (j <= right)%Z -> zget a i = Some x -> zget a j = Some y -> le x y.

Lemma quicksort_rec_sorts fuel (a : list A) left right :
  (0 <= left)%Z -> (right < Z.of_nat (length a))%Z -> ((left < right)%Z -> low_guard a left right /\ high_guard a left right) ->
  (right - left < Z.of_nat fuel)%Z ->
  exists b, quicksort_rec A less fuel a left right = Some b /\ rearranged left right a b /\ sorted_range b left right.
Proof.
  revert a left right. induction fuel; intros a left right h0 hn hg hf; cbn [quicksort_rec];
    (destruct (Z.leb_spec right left) as [c|c];
      [exists a; hsplits; auto using rearranged_refl; intros i j x y; lia|]); [lia|].
  destruct (hg c) as [g1 g2].
  set (pv := (left + (right - left) / 2)%Z).
  assert (hpv : (left <= pv <= right)%Z).
  { subst pv. assert (0 <= (right - left) / 2)%Z by (apply Z.div_pos; lia).
    assert ((right - left) / 2 <= right - left)%Z by (apply Z.div_le_upper_bound; lia). lia. }
  clearbody pv. destruct (zget_in a pv) as [p hp]; [lia|].
  destruct (partition_ends (S (length a)) a pv p left right left right) as (b & l & r & e1 & e2 & e3 & e4); auto; try lia.
  rewrite e1. cbn [bind]. destruct e3 as (s1 & s2 & s3 & s4).
  pose proof (proj1 e2) as elen.
  pose proof (low_guard_rearranged _ _ _ _ e2 g1) as (gl & lo & gl1 & gl2 & gl3).
  pose proof (high_guard_rearranged _ _ _ _ e2 g2) as (gh & hi & gh1 & gh2 & gh3).
  destruct (IHfuel b left r) as (b1 & f1 & f2 & f3); auto; try lia.
  { intros hlr. split.
    - exists gl, lo. hsplits; auto; try lia. intros i x hi1. apply gl3. lia.
    - destruct (zget_in b (r + 1)) as [y hy]; [lia|]. exists (r + 1)%Z, y. hsplits; auto; try lia.
      intros i x hi1 hx. apply le_trans with p.
      + apply (s3 i); auto; lia.
      + apply (s4 (r + 1)%Z); auto; lia. }
  rewrite f1. cbn [bind]. pose proof (proj1 f2) as flen.
  pose proof f2 as (_ & _ & f2o & f2i).
  assert (hA : forall i x, (left <= i < l)%Z -> (i <= right)%Z -> zget b1 i = Some x -> le x p).
  { intros i x hi1 hi2 hx. destruct (Z_le_gt_dec i r) as [d|d].
    - destruct (f2i i) as (j & hj & ej); [lia|]. apply (s3 j); try lia. congruence.
    - apply (s3 i); auto. rewrite <- f2o; auto; lia. }
  assert (hB : forall i x, (r < i <= right)%Z -> (left <= i)%Z -> zget b1 i = Some x -> le p x).
  { intros i x hi1 hi2. rewrite f2o by lia. apply s4; auto. }
  destruct (IHfuel b1 l right) as (b2 & q1 & q2 & q3); auto; try lia.
  { intros hlr. split.
    - destruct (zget_in b1 (l - 1)) as [y hy]; [lia|]. exists (l - 1)%Z, y. hsplits; auto; try lia.
      intros i x hi1 hx. apply le_trans with p.
      + apply (hA (l - 1)%Z); auto; lia.
      + apply (hB i); auto; lia.
    - exists gh, hi. hsplits; auto; try lia.
      + rewrite f2o; auto. lia.
      + intros i x hi1 hx. apply (gh3 i); [lia|]. rewrite <- f2o; auto. lia. }
  exists b2. hsplits; auto.
  - eapply rearranged_trans; [exact e2|]. eapply rearranged_trans.
    + apply (rearranged_widen left r); [lia|lia|exact f2].
    + apply (rearranged_widen l right); [lia|lia|exact q2].
  - destruct q2 as (_ & _ & q2o & q2i).
    assert (hA' : forall i x, (left <= i < l)%Z -> (i <= right)%Z -> zget b2 i = Some x -> le x p).
    { intros i x hi1 hi2. rewrite q2o by lia. apply hA; auto. }
    assert (hB' : forall i x, (r < i <= right)%Z -> (left <= i)%Z -> zget b2 i = Some x -> le p x).
    { intros i x hi1 hi2 hx. destruct (Z_le_gt_dec l i) as [d|d].
      - destruct (q2i i) as (j & hj & ej); [lia|]. apply (hB j); try lia. congruence.
      - apply (hB i); auto. rewrite <- q2o; auto. lia. }
    intros i j x y hi1 hj1 hx hy. destruct (Z_le_gt_dec j r) as [d|d].
    + apply (f3 i j); try lia; rewrite <- q2o; auto; lia.
    + destruct (Z_lt_ge_dec i l) as [d'|d'].
      * apply le_trans with p; [apply (hA' i)|apply (hB' j)]; auto; lia.
      * apply (q3 i j); auto; lia.
Qed.
End Quicksort.
