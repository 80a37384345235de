From Verif Require Import Base ArrModel ArrSpec ArrProofs.
Lemma bits_keep a size out : forall fuel i a_i bits_i mask m m', bits_loop fuel a size out i a_i bits_i mask m = Some m' -> forall j, j < i -> nth_error m' (out + j) = nth_error m (out + j).
Proof.
  induction fuel as [|fuel IH]; intros i a_i bits_i mask m m' H j hj; [discriminate|]. cbn [bits_loop] in H.
  destruct (i <? size); [|injection H as <-; reflexivity]. destruct (bits_i <? 32).
  - apply bind_some in H. destruct H as (x & e1 & H). apply bind_some in H. destruct H as (m1 & e2 & H).
    rewrite (IH _ _ _ _ _ _ H j) by lia. rewrite (aset_get _ _ _ _ (out + j) e2). destruct (Nat.eqb_spec (out + j) (out + i)); [lia|reflexivity].
  - exact (IH _ _ _ _ _ _ H j hj).
Qed.
Lemma bits_in_place m a size m' : 2 <= size -> times_bits_to_times m a size a = Some m' -> nth_error m' (a + 1) = Some 0%Z.
Proof.
  intros hs. unfold times_bits_to_times. replace (2 * size + 1) with (S (S (2 * size - 1))) by lia. set (f := 2 * size - 1).
  intros H. cbn [bits_loop] in H. destruct (Nat.ltb_spec 0 size); [|lia]. destruct (Nat.ltb_spec 1 size); [|lia]. destruct (Nat.ltb_spec 0 32); [|lia]. destruct (Nat.ltb_spec 1 32); [|lia].
  apply bind_some in H. destruct H as (x & e1 & H). apply bind_some in H. destruct H as (m1 & e2 & H).
  apply bind_some in H. destruct H as (x2 & e3 & H). apply bind_some in H. destruct H as (m2 & e4 & H).
  rewrite (bits_keep _ _ _ _ _ _ _ _ _ _ H 1) by lia. rewrite (aset_get _ _ _ _ (a + 1) e4), Nat.eqb_refl.
  unfold aget in e3. rewrite (aset_get _ _ _ _ (a + 0) e2), Nat.eqb_refl in e3. injection e3 as <-.
  destruct (Z.land x 1 =? 0)%Z; reflexivity.
Qed.
Lemma select_in_place m in_ idx count m' (k0 k1 : Z) : 2 <= count -> in_ + count <= idx -> nth_error m idx = Some k0 -> nth_error m (idx + 1) = Some k1 -> k1 = 0%Z ->
  times_select m in_ idx count in_ = Some m' -> nth_error m' (in_ + 1) = nth_error m (in_ + Z.to_nat k0).
Proof.
  intros hc hd e0 e1 -> H. unfold times_select in H. rewrite (for_split _ 0 2 count) in H by lia. apply bind_some in H. destruct H as (m2 & ha & hb).
  unfold for_ in ha. cbn [Nat.sub for_from] in ha. rewrite Nat.add_0_r in ha. unfold aget in ha. rewrite e0 in ha. cbn [bind] in ha.
  apply bind_some in ha. destruct ha as (m1 & ha1 & ha). apply bind_some in ha1. destruct ha1 as (x & ex & es).
  rewrite (aset_get _ _ _ _ (idx + 1) es) in ha. destruct (Nat.eqb_spec (idx + 1) (in_ + 0)) as [h|_]; [lia|]. rewrite e1 in ha. cbn [bind] in ha.
  apply bind_some in ha. destruct ha as (m3 & ha3 & ha). injection ha as ->. apply bind_some in ha3. destruct ha3 as (y & ey & es2).
  change (Z.to_nat 0) with 0 in ey. rewrite (aset_get _ _ _ _ (in_ + 0) es), Nat.eqb_refl in ey. injection ey as <-.
  assert (hk : nth_error m' (in_ + 1) = nth_error m2 (in_ + 1)).
  { refine (for_inv_partial (fun _ m' => nth_error m' (in_ + 1) = nth_error m2 (in_ + 1)) _ 2 count m2 m' _ eq_refl _ hb); [lia|].
    intros i s s' hi1 hs hb2. apply bind_some in hb2. destruct hb2 as (k & _ & hb2). apply bind_some in hb2. destruct hb2 as (z & _ & hb2).
    rewrite (aset_get _ _ _ _ (in_ + 1) hb2). destruct (Nat.eqb_spec (in_ + 1) (in_ + i)); [lia|exact hs]. }
  rewrite hk, (aset_get _ _ _ _ (in_ + 1) es2), Nat.eqb_refl. symmetry. exact ex.
Qed.
Lemma select_in_place_wrong m m' la in_ size idx count (k : Z) ks : slice m in_ size = Some la -> slice m idx count = Some (k :: 0%Z :: ks) ->
  in_ + count <= idx -> (0 <= k < Z.of_nat size)%Z -> nth (Z.to_nat k) la 0%Z <> nth 0 la 0%Z ->
  times_select m in_ idx count in_ = Some m' -> nth_error m' (in_ + 1) <> Some (nth 0 la 0%Z).
Proof.
  intros hl hk hd hr hne e. pose proof (slice_length _ _ _ _ hk) as hlen. cbn [length] in hlen.
  assert (e0 : nth_error m idx = Some k). { pose proof (slice_get _ _ _ _ 0 hk ltac:(lia)) as h. rewrite Nat.add_0_r in h. rewrite <- h. reflexivity. }
  assert (e1 : nth_error m (idx + 1) = Some 0%Z). { pose proof (slice_get _ _ _ _ 1 hk ltac:(lia)) as h. rewrite <- h. reflexivity. }
  rewrite (select_in_place m in_ idx count m' k 0 ltac:(lia) hd e0 e1 eq_refl e). rewrite <- (slice_get _ _ _ _ (Z.to_nat k) hl) by lia.
  pose proof (slice_length _ _ _ _ hl) as hll. rewrite (nth_error_nth' la 0%Z) by lia. intros [= h]. exact (hne h).
Qed.
