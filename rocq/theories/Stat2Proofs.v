From Verif Require Import Base MiscModel MiscSpec MiscProofs ArrModel ArrSpec ArrProofs ScaleModel ScaleSpec ScaleProofs Scale2Proofs SortModel SortSpec SortProofs Sort2Proofs StatProofs.
From Coq Require Import QArith Qround Qabs Lqa Sorting.Permutation.
Open Scope nat_scope.

(** ** scaling to times *)
Lemma mul_frac_between x m r : (0 <= x <= r)%Q -> (0 < r)%Q -> (0 <= m)%Q -> (0 <= x * (m / r) <= m)%Q.
Proof.
  intros [h1 h2] hr hm. assert (hq : (0 <= m / r)%Q) by (apply Qle_shift_div_l; lra).
  split; [apply Qmult_le_0_compat; auto|].
  apply Qle_trans with (r * (m / r))%Q; [apply Qmult_le_compat_r; auto|]. apply Qle_lteq. right. field. lra.
Qed.
Lemma scale_to_times_correct a n max out lo : 0 < n <= length a -> n <= length out -> (0 <= max < two32)%Z ->
  minimum_of Qle lo (firstn n a) -> (lo <= 0)%Q -> (exists x, In x (firstn n a) /\ lo < x)%Q ->
  exists out' factor, scale_to_times a n max out = Some out' /\ length out' = length out /\
    (0 <= factor)%Q /\
    (forall i, i < n -> exists x y, nth_error a i = Some x /\ nth_error out' i = Some y /\ rounded ((x - lo) * factor) y /\ (0 <= y <= max)%Z /\
      (maximum_of Qle x (firstn n a) -> y = max)) /\
    (forall i, n <= i -> nth_error out' i = nth_error out i).
Proof.
  intros hn ho hm hmin hlo (xg & hxg1 & hxg2).
  destruct (samples_range_correct a n hn) as (mi & ma & e & [h1 h2] & [h3 h4]).
  assert (emi : (mi == lo)%Q).
  { destruct hmin as [k1 k2]. rewrite Forall_forall in k2, h2. apply Qle_antisym; auto. }
  assert (hgt : (0 < ma - mi)%Q).
  { rewrite Forall_forall in h4. pose proof (h4 _ hxg1). lra. }
  unfold scale_to_times. rewrite e. cbn [bind].
  replace (Qeq_bool (ma - mi) 0) with false by (symmetry; destruct (Qeq_bool (ma - mi) 0) eqn:q; auto; apply Qeq_bool_iff in q; lra).
  set (add := if Qlt_bool mi 0 then Qabs mi else 0%Q).
  assert (hadd : (add == - lo)%Q).
  { unfold add. destruct (Qlt_bool mi 0) eqn:q.
    - apply Qlt_bool_iff in q. rewrite Qabs_neg by lra. lra.
    - apply Qlt_bool_false in q. lra. }
  clearbody add.
  assert (hmq : (0 <= inject_Z max)%Q) by (change 0%Q with (inject_Z 0); apply inject_le; lia).
  assert (hmq2 : (inject_Z max + 1 <= inject_Z two32)%Q) by (change 1%Q with (inject_Z 1); rewrite <- inject_Z_plus; apply inject_le; lia).
  destruct (tab_loop (fun i => x <- aget a i ;; cheap_round ((x + add) * (inject_Z max / (ma - mi)))%Q)
    (fun i v => exists x, nth_error a i = Some x /\ rounded ((x - lo) * (inject_Z max / (ma - mi))) v /\ (0 <= v <= max)%Z /\ (maximum_of Qle x (firstn n a) -> v = max)) n out) as (out' & e1 & e2 & e3 & e4); auto.
  - intros i hi. destruct (nth_error_some a i) as [x hx]; [lia|]. unfold aget. rewrite hx. cbn [bind].
    assert (hin : In x (firstn n a)) by (apply nth_error_In with i; rewrite nth_error_firstn by lia; auto).
    rewrite Forall_forall in h2, h4. pose proof (h2 _ hin). pose proof (h4 _ hin).
    assert (hb : (0 <= (x + add) * (inject_Z max / (ma - mi)) <= inject_Z max)%Q) by (apply mul_frac_between; auto; lra).
    destruct (cheap_round_rounded ((x + add) * (inject_Z max / (ma - mi)))) as (z & ez & hz); [lra|lra|].
    exists z. split; auto. exists x. splits; auto.
    + unfold rounded in *. rewrite hadd in hz. unfold Qminus. apply hz.
    + apply (rounded_between _ _ 0 max hz). exact hb.
    + apply (rounded_between _ _ 0 max hz). exact hb.
    + intros [_ k]. rewrite Forall_forall in k. pose proof (k _ h3).
      assert (heq : ((x + add) * (inject_Z max / (ma - mi)) == inject_Z max)%Q).
      { assert (hx2 : (x + add == ma - mi)%Q) by lra. rewrite hx2. field. lra. }
      apply Z.le_antisymm; apply (rounded_between _ _ max max hz); rewrite heq; split; apply Qle_refl.
  - assert (e5 : for_ 0 n (fun i out => x <- aget a i ;; v <- cheap_round ((x + add) * (inject_Z max / (ma - mi)))%Q ;; aset out i v) out = Some out').
    { rewrite <- e1. apply for_from_ext. intros i s hi. destruct (aget a i); reflexivity. }
    rewrite e5. exists out', (inject_Z max / (ma - mi))%Q. splits; auto.
    + apply Qle_shift_div_l; lra.
    + intros i hi. destruct (e3 i hi) as (v & _ & k1 & x & k2 & k3 & k4 & k5). exists x, v. auto.
Qed.

(** ** inharmonicity *)
Lemma nearest_distance_floor q : (0 <= q)%Q ->
  nearest_distance q (let b := (q - inject_Z (Qfloor q))%Q in if Qle_bool b (1 # 2) then b else 1 - b)%Q.
Proof.
  intros _. pose proof (Qfloor_le q) as h1. pose proof (Qlt_floor q) as h2. rewrite inject_Z_plus in h2. change (inject_Z 1) with 1%Q in h2.
  set (f := Qfloor q) in *. clearbody f. cbv zeta.
  assert (G : forall z, (q - inject_Z f <= Qabs (q - inject_Z z) \/ 1 - (q - inject_Z f) <= Qabs (q - inject_Z z))%Q).
  { intros z. destruct (Z_le_gt_dec z f) as [c|c].
    - left. apply inject_le in c. rewrite Qabs_pos by lra. lra.
    - right. assert (c' : (f + 1 <= z)%Z) by lia. apply inject_le in c'. rewrite inject_Z_plus in c'. change (inject_Z 1) with 1%Q in c'. rewrite Qabs_neg by lra. lra. }
  destruct (Qle_bool (q - inject_Z f) (1 # 2)) eqn:e.
  - apply Qle_bool_iff in e. split.
    + exists f. rewrite Qabs_pos by lra. reflexivity.
    + intros z. destruct (G z); lra.
  - assert (e' : (1 # 2 < q - inject_Z f)%Q) by (apply Qnot_le_lt; intros k; apply Qle_bool_iff in k; congruence). split.
    + exists (f + 1)%Z. rewrite inject_Z_plus. change (inject_Z 1) with 1%Q. rewrite Qabs_neg by lra. lra.
    + intros z. destruct (G z); lra.
Qed.
Lemma nearest_distance_unique q d d' : nearest_distance q d -> nearest_distance q d' -> (d == d')%Q.
Proof. intros [[z hz] h] [[z' hz'] h']. specialize (h z'). specialize (h' z). apply Qle_antisym; lra. Qed.
Lemma nearest_distance_half q d : nearest_distance q d -> (0 <= d <= 1 # 2)%Q.
Proof.
  intros [[z hz] h]. split; [rewrite hz; apply Qabs_nonneg|].
  pose proof (Qfloor_le q) as h1. pose proof (Qlt_floor q) as h2. rewrite inject_Z_plus in h2. change (inject_Z 1) with 1%Q in h2.
  pose proof (h (Qfloor q)) as k1. pose proof (h (Qfloor q + 1)%Z) as k2. rewrite inject_Z_plus in k2. change (inject_Z 1) with 1%Q in k2.
  rewrite Qabs_pos in k1 by lra. rewrite Qabs_neg in k2 by lra. lra.
Qed.
Lemma mean_distance_unique l y m m' : l <> [] -> mean_distance l y m -> mean_distance l y m' -> (m == m')%Q.
Proof.
  intros _ (ds & h1 & h2) (ds' & h1' & h2'). rewrite h2, h2'. assert (e : (fold_right Qplus 0 ds == fold_right Qplus 0 ds')%Q).
  { clear h2 h2'. revert ds' h1'. induction h1; intros ds' h1'; inversion h1'; subst; cbn [fold_right]; [reflexivity|].
    rewrite (IHh1 l'0) by auto. rewrite (nearest_distance_unique _ _ _ H H2). reflexivity. }
  rewrite e. reflexivity.
Qed.
Lemma mean_distance_half l y m : l <> [] -> mean_distance l y m -> (0 <= m <= 1 # 2)%Q.
Proof.
  intros hl (ds & h1 & h2).
  assert (e : (0 <= fold_right Qplus 0 ds <= inject_Z (Z.of_nat (length l)) * (1 # 2))%Q).
  { clear h2 hl. induction h1 as [|x d l ds hd _ IH]; cbn [fold_right length]; [change (inject_Z (Z.of_nat 0)) with 0%Q; split; lra|].
    apply nearest_distance_half in hd. rewrite Nat2Z.inj_succ, <- Z.add_1_r, inject_Z_plus. change (inject_Z 1) with 1%Q. split; lra. }
  assert (hp : (0 < inject_Z (Z.of_nat (length l)))%Q) by (apply inject_pos; destruct l; [congruence|cbn [length]; lia]).
  rewrite h2. split; [apply Qle_shift_div_l; lra|apply Qle_shift_div_r; lra].
Qed.
Lemma mean_distance_zero l y m : l <> [] -> mean_distance l y m -> (m == 0 <-> Forall (fun x => exists z, x / y == inject_Z z) l)%Q.
Proof.
  intros hl (ds & h1 & h2).
  assert (hp : (0 < inject_Z (Z.of_nat (length l)))%Q) by (apply inject_pos; destruct l; [congruence|cbn [length]; lia]).
  assert (e : (fold_right Qplus 0 ds == 0 <-> Forall (fun x => exists z, x / y == inject_Z z) l)%Q).
  { clear h2 hl hp.
    assert (hnn : forall l ds, Forall2 (fun x d => nearest_distance (x / y) d) l ds -> (0 <= fold_right Qplus 0 ds)%Q).
    { clear. induction 1 as [|x d l ds hd _ IH]; cbn [fold_right]; [lra|]. apply nearest_distance_half in hd. lra. }
    induction h1 as [|x d l ds hd h1 IH]; cbn [fold_right]; [split; [constructor|reflexivity]|].
    pose proof (hnn _ _ h1) as hn. pose proof (nearest_distance_half _ _ hd) as hd2. split.
    - intros h. constructor; [|apply IH; lra]. destruct hd as [[z hz] _]. exists z.
      assert (hz0 : (Qabs (x / y - inject_Z z) <= 0)%Q) by lra. apply Qabs_Qle_condition in hz0. lra.
    - intros h. inversion h as [|? ? [z hz] k]; subst. apply IH in k. rewrite k.
      destruct hd as [_ hd]. specialize (hd z). rewrite hz in hd. rewrite Qabs_pos in hd by lra. lra. }
  rewrite h2, <- e. split; intros h.
  - assert (k : (fold_right Qplus 0 ds == (fold_right Qplus 0 ds / inject_Z (Z.of_nat (length l))) * inject_Z (Z.of_nat (length l)))%Q) by (field; lra).
    rewrite k, h. ring.
  - rewrite h. field. lra.
Qed.
Lemma fold_plus_snoc l x : (fold_right Qplus 0 (l ++ [x]) == fold_right Qplus 0 l + x)%Q.
Proof. induction l; cbn [app fold_right]; [ring|]. rewrite IHl. ring. Qed.

Lemma inharmonicity_correct a n : 0 < n <= length a -> Forall (fun x => 0 < x)%Q (firstn n a) ->
  Forall (fun x => Forall (fun y => x / y < inject_Z two32)%Q (firstn n a)) (firstn n a) ->
  exists r, inharmonicity a n = Some r /\ (exists y, In y (firstn n a) /\ mean_distance (firstn n a) y r) /\
    (forall y m, In y (firstn n a) -> mean_distance (firstn n a) y m -> (r <= m)%Q).
Proof.
  intros hn hp hr. unfold inharmonicity. rewrite Forall_forall in hp, hr.
  assert (hne : firstn n a <> []) by (destruct a; [cbn in hn; lia|]; destruct n; [lia|discriminate]).
  assert (hlen : length (firstn n a) = n) by (rewrite firstn_length; lia).
  assert (hin : forall i x, i < n -> nth_error a i = Some x -> In x (firstn n a)).
  { intros i x hi hx. apply nth_error_In with i. rewrite nth_error_firstn by lia. auto. }
  assert (hnq : (1 <= inject_Z (Z.of_nat n))%Q) by (change 1%Q with (inject_Z 1); apply inject_le; lia).
  match goal with |- context [for_ 0 n ?body _] => destruct (for_inv (fun i min =>
    (i = 0 -> min = inject_Z (Z.of_nat n)) /\ (0 < i -> exists y, In y (firstn n a) /\ mean_distance (firstn n a) y min) /\
    (forall j y m, j < i -> nth_error a j = Some y -> mean_distance (firstn n a) y m -> (min <= m)%Q)) body 0 n (inject_Z (Z.of_nat n))) as [r [e (_ & h1 & h2)]] end.
  - lia.
  - splits; auto; intros; lia.
  - intros i min hi (k0 & k1 & k2). destruct (nth_error_some a i) as [y hy]; [lia|]. unfold aget at 1. rewrite hy. cbn [bind].
    pose proof (hin _ _ (proj2 hi) hy) as hiny. pose proof (hp _ hiny) as hyp.
    replace (Qeq_bool y 0) with false by (symmetry; destruct (Qeq_bool y 0) eqn:q; auto; apply Qeq_bool_iff in q; lra). cbn [negb need bind].
    match goal with |- context [for_ 0 n ?body 0%Q] => destruct (for_inv (fun i s => exists ds, Forall2 (fun x d => nearest_distance (x / y) d) (firstn i a) ds /\ (s == fold_right Qplus 0 ds)%Q) body 0 n 0%Q) as [s [es (ds & hs1 & hs2)]] end.
    + lia.
    + exists []. split; [constructor|reflexivity].
    + intros j s hj (ds & hd1 & hd2). destruct (nth_error_some a j) as [x hx]; [lia|]. unfold aget. rewrite hx. cbn [bind].
      pose proof (hin _ _ (proj2 hj) hx) as hinx. pose proof (hp _ hinx) as hxp. pose proof (hr _ hinx) as hrx. rewrite Forall_forall in hrx. pose proof (hrx _ hiny) as hxy.
      assert (hq : (0 <= x / y)%Q) by (apply Qle_shift_div_l; lra).
      assert (ht : time_of (x / y) = Some (Qfloor (x / y))).
      { unfold time_of. apply Qle_bool_iff in hq. rewrite hq. destruct (Z.ltb_spec (Qfloor (x / y)) two32); auto.
        exfalso. pose proof (Qfloor_le (x / y)). apply inject_le in H. lra. }
      rewrite ht. cbn [bind]. eexists. split; [reflexivity|]. exists (ds ++ [let b := (x / y - inject_Z (Qfloor (x / y)))%Q in if Qle_bool b (1 # 2) then b else (1 - b)%Q]). split.
      * rewrite (firstn_S_app _ _ _ hx). apply Forall2_app; auto. constructor; [|constructor]. apply nearest_distance_floor. exact hq.
      * rewrite fold_plus_snoc, hd2. reflexivity.
    + rewrite es. cbn [bind].
      assert (hmd : mean_distance (firstn n a) y (s / inject_Z (Z.of_nat n))).
      { exists ds. split; auto. rewrite hlen, hs2. reflexivity. }
      pose proof (mean_distance_half _ _ _ hne hmd) as hhalf.
      eexists. split; [reflexivity|]. destruct (Qlt_bool (s / inject_Z (Z.of_nat n)) min) eqn:q.
      * apply Qlt_bool_iff in q. splits; [lia|eauto|]. intros j y' m hj hy' hm. destruct (Nat.eq_dec j i) as [->|].
        -- assert (y' = y) by congruence. subst y'. rewrite (mean_distance_unique _ _ _ _ hne hm hmd). apply Qle_refl.
        -- pose proof (k2 j y' m ltac:(lia) hy' hm). lra.
      * apply Qlt_bool_false in q. splits; [lia| |].
        -- intros _. destruct i; [|apply k1; lia]. exfalso. rewrite k0 in q by auto. lra.
        -- intros j y' m hj hy' hm. destruct (Nat.eq_dec j i) as [->|].
           ++ assert (y' = y) by congruence. subst y'. rewrite (mean_distance_unique _ _ _ _ hne hm hmd). exact q.
           ++ apply (k2 j y' m); auto. lia.
  - exists r. splits; auto; [apply h1; lia|]. intros y m hy hm. apply In_nth_error in hy. destruct hy as [j hj]. pose proof (nth_error_lt _ _ _ hj) as hl. rewrite hlen in hl.
    rewrite nth_error_firstn in hj by lia. apply (h2 j y m); auto.
Qed.
