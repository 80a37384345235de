From Verif Require Import Base ArrModel ArrSpec ArrProofs ArrTimesProofs.
From Coq Require Import ZifyBool ZifyNat.

Lemma slice_replace {A} (m : list A) p L : p + length L <= length m -> slice (replace m p L) p (length L) = Some L.
Proof.
  intro H. rewrite slice_some by (rewrite replace_length; lia). f_equal. unfold replace.
  rewrite skipn_app, firstn_length, skipn_all2 by (rewrite firstn_length; lia).
  replace (p - Nat.min p (length m)) with 0 by lia. cbn [skipn app]. rewrite firstn_app, firstn_all, Nat.sub_diag, firstn_O. apply app_nil_r.
Qed.
Lemma slice_replace_n {A} (m : list A) p L n : length L = n -> p + n <= length m -> slice (replace m p L) p n = Some L.
Proof. intros <- H. now apply slice_replace. Qed.
Lemma slice_replace_other {A} (m : list A) p L q n l : p + length L <= length m -> disjoint p (length L) q n ->
  slice m q n = Some l -> slice (replace m p L) q n = Some l.
Proof.
  intros H HD HS. pose proof (slice_bound _ _ _ _ HS). rewrite slice_some by (rewrite replace_length; lia). f_equal.
  apply nth_error_ext. intro i. rewrite (slice_get' _ _ _ _ i HS). destruct (Nat.ltb_spec i n).
  - rewrite nth_error_firstn, nth_error_skipn, replace_get by lia. unfold disjoint in HD. bd; auto; lia.
  - apply nth_error_firstn_ge. lia.
Qed.
Lemma slice_sub {A} (m : list A) p n l i k : slice m p n = Some l -> i + k <= n -> slice m (p + i) k = Some (firstn k (skipn i l)).
Proof.
  intros HS H. pose proof (slice_bound _ _ _ _ HS). rewrite slice_some by lia. f_equal. apply nth_error_ext. intro j.
  destruct (Nat.lt_ge_cases j k).
  - rewrite !nth_error_firstn, !nth_error_skipn by lia. rewrite (slice_get _ _ _ _ _ HS) by lia. f_equal. lia.
  - rewrite !nth_error_firstn_ge by lia. reflexivity.
Qed.
Lemma slice_app {A} (m : list A) p n k a b : slice m p n = Some a -> slice m (p + n) k = Some b -> slice m p (n + k) = Some (a ++ b).
Proof.
  intros HA HB. pose proof (slice_bound _ _ _ _ HB). rewrite slice_some by lia. f_equal. apply nth_error_ext. intro j.
  pose proof (slice_length _ _ _ _ HA). pose proof (slice_length _ _ _ _ HB).
  destruct (Nat.lt_ge_cases j (n + k)).
  - rewrite nth_error_firstn, nth_error_skipn by lia. destruct (Nat.lt_ge_cases j n).
    + rewrite nth_error_app1 by lia. symmetry. now apply slice_get with n.
    + rewrite nth_error_app2 by lia. rewrite (slice_get _ _ _ _ _ HB) by lia. f_equal. lia.
  - rewrite nth_error_firstn_ge by lia. symmetry. apply nth_error_None. rewrite app_length. lia.
Qed.
Lemma replace_app {A} (m : list A) p a b : p + length (a ++ b) <= length m ->
  replace (replace m p a) (p + length a) b = replace m p (a ++ b).
Proof.
  intro H. rewrite app_length in H. apply nth_error_ext. intro j. rewrite !replace_get by (rewrite ?replace_length, ?app_length; lia). rewrite app_length.
  destruct (Nat.lt_ge_cases j p).
  { bd; auto; lia. }
  destruct (Nat.lt_ge_cases j (p + length a)).
  { rewrite nth_error_app1 by lia. bd; auto; lia. }
  destruct (Nat.lt_ge_cases j (p + length a + length b)).
  { rewrite nth_error_app2 by lia. replace (j - p - length a) with (j - (p + length a)) by lia. bd; auto; lia. }
  bd; auto; lia.
Qed.

Lemma mem_copy_correct m to from n l : slice m from n = Some l -> to + n <= length m -> disjoint from n to n ->
  mem_copy m to from n = Some (replace m to l).
Proof.
  intros HS HT HD. pose proof (slice_length _ _ _ _ HS) as HL. unfold mem_copy.
  replace ((to + n <=? from) || (from + n <=? to) || (n =? 0)) with true by (unfold disjoint in HD; lia). cbn [need bind].
  destruct (blit_some m from m to n) as [m' E]; [exact (slice_bound _ _ _ _ HS)|lia|]. rewrite E. f_equal.
  apply nth_error_ext. intro i. rewrite (blit_get _ _ _ _ _ _ i E), replace_get by lia. rewrite HL.
  destruct ((to <=? i) && (i <? to + n)) eqn:Eb; [|reflexivity]. rewrite (slice_get _ _ _ _ _ HS) by lia. f_equal.
Qed.

Lemma remove_correct m in_ size l index count out :
  slice m in_ size = Some l -> index + count <= size -> out + (size - count) <= length m -> disjoint in_ size out (size - count) ->
  times_remove m in_ size index count out = Some (replace m out (removed l index count)).
Proof.
  intros HS HI HO HD. pose proof (slice_length _ _ _ _ HS) as HL. unfold times_remove, removed, disjoint in *.
  destruct (Nat.eqb_spec index 0) as [->|].
  - replace (count <=? size) with true by lia. cbn [need bind firstn app]. cbn [Nat.add].
    rewrite (mem_copy_correct m out (in_ + count) (size - count) (firstn (size - count) (skipn count l))).
    + rewrite firstn_all2 by (rewrite skipn_length; lia). reflexivity.
    + apply slice_sub with size; auto. lia.
    + lia.
    + unfold disjoint. lia.
  - destruct (Nat.eqb_spec (size - 1) index) as [Hx|].
    + replace (count <=? size) with true by lia. cbn [need bind].
      rewrite (mem_copy_correct m out in_ (size - count) (firstn (size - count) l)).
      * f_equal. f_equal. assert (Hc : count = 0 \/ count = 1) by lia. destruct Hc as [->| ->].
        -- rewrite Nat.sub_0_r, Nat.add_0_r, firstn_skipn. apply firstn_all2. lia.
        -- rewrite skipn_all2 by lia. rewrite app_nil_r. f_equal. lia.
      * rewrite <- (Nat.add_0_r in_). change l with (skipn 0 l). apply slice_sub with size; auto. lia.
      * lia.
      * unfold disjoint. lia.
    + rewrite (mem_copy_correct m out in_ index (firstn index l)).
      2: { rewrite <- (Nat.add_0_r in_). change l with (skipn 0 l). apply slice_sub with size; auto. lia. }
      2: lia.
      2: { unfold disjoint. lia. }
      cbn [bind]. replace (index + count <=? size) with true by lia. cbn [need bind].
      assert (LF : length (firstn index l) = index) by (rewrite firstn_length; lia).
      rewrite (mem_copy_correct _ (out + index) (in_ + index + count) (size - index - count) (skipn (index + count) l)).
      * f_equal. rewrite <- (replace_app m out (firstn index l)); [now rewrite LF|]. rewrite app_length, firstn_length, skipn_length. lia.
      * apply slice_replace_other; [lia| |].
        -- unfold disjoint. lia.
        -- rewrite <- (firstn_all2 (n := size - index - count) (skipn (index + count) l)) by (rewrite skipn_length; lia).
           rewrite <- Nat.add_assoc. apply slice_sub with size; auto. lia.
      * rewrite replace_length; lia.
      * unfold disjoint. lia.
Qed.

Lemma insert_space_correct m in_ size l index count out :
  slice m in_ size = Some l -> index <= size -> out + size + count <= length m -> disjoint in_ size out (size + count) ->
  exists m', times_insert_space m in_ size index count out = Some m' /\ length m' = length m /\
  slice m' out index = Some (firstn index l) /\ slice m' (out + index + count) (size - index) = Some (skipn index l) /\
  (forall j, j < out \/ (out + index <= j /\ j < out + index + count) \/ out + size + count <= j -> nth_error m' j = nth_error m j).
Proof.
  intros HS HI HO HD. pose proof (slice_length _ _ _ _ HS) as HL. unfold times_insert_space, disjoint in *.
  destruct (Nat.eqb_spec index 0) as [->|].
  - rewrite (mem_copy_correct m (out + count) in_ size l HS) by (unfold disjoint; lia). exists (replace m (out + count) l). splits; auto.
    + apply replace_length. lia.
    + rewrite slice_some by (rewrite replace_length; lia). reflexivity.
    + cbn [skipn]. rewrite Nat.add_0_r, Nat.sub_0_r. rewrite <- HL. apply slice_replace. lia.
    + intros j Hj. rewrite replace_get by lia. bd; auto; lia.
  - assert (LF : length (firstn index l) = index) by (rewrite firstn_length; lia).
    assert (LS : length (skipn index l) = size - index) by (rewrite skipn_length; lia).
    rewrite (mem_copy_correct m out in_ index (firstn index l)).
    2: { rewrite <- (Nat.add_0_r in_). change l with (skipn 0 l). apply slice_sub with size; auto; lia. }
    2: lia.
    2: { unfold disjoint. lia. }
    cbn [bind]. replace (index <=? size) with true by lia. cbn [need bind].
    rewrite (mem_copy_correct _ (out + index + count) (in_ + index) (size - index) (skipn index l)).
    + exists (replace (replace m out (firstn index l)) (out + index + count) (skipn index l)). splits; auto.
      * rewrite !replace_length; rewrite ?replace_length; lia.
      * apply slice_replace_other; [rewrite replace_length; lia|unfold disjoint; lia|]. rewrite <- LF at 2. apply slice_replace. lia.
      * rewrite <- LS. apply slice_replace. rewrite replace_length; lia.
      * intros j Hj. rewrite !replace_get by (rewrite ?replace_length; lia). bd; auto; lia.
    + apply slice_replace_other; [lia|unfold disjoint; lia|].
      rewrite <- (firstn_all2 (n := size - index) (skipn index l)) by lia. apply slice_sub with size; auto. lia.
    + rewrite replace_length; lia.
    + unfold disjoint. lia.
Qed.

Lemma insert_remove m in_ size l index count out out2 :
  slice m in_ size = Some l -> index <= size ->
  out + size + count <= length m -> disjoint in_ size out (size + count) ->
  out2 + size <= length m -> disjoint out (size + count) out2 size ->
  exists m' m2, times_insert_space m in_ size index count out = Some m' /\
  times_remove m' out (size + count) index count out2 = Some m2 /\ slice m2 out2 size = Some l.
Proof.
  intros HS HI HO HD HO2 HD2. pose proof (slice_length _ _ _ _ HS) as HL.
  destruct (insert_space_correct m in_ size l index count out HS HI HO HD) as [m' [E [L' [S1 [S2 _]]]]].
  destruct (nth_error_some [0] 0) as [_ _]; [cbn; lia|].
  assert (SG : exists g, slice m' (out + index) count = Some g) by (rewrite slice_some by lia; eauto). destruct SG as [g SG].
  assert (SA : slice m' out (size + count) = Some (firstn index l ++ g ++ skipn index l)).
  { replace (size + count) with (index + (count + (size - index))) by lia. apply slice_app; auto. now apply slice_app. }
  exists m', (replace m' out2 (removed (firstn index l ++ g ++ skipn index l) index count)). splits; auto.
  - apply remove_correct; auto; unfold disjoint in *; lia.
  - assert (ER : removed (firstn index l ++ g ++ skipn index l) index count = l).
    { unfold removed. assert (LF : length (firstn index l) = index) by (rewrite firstn_length; lia).
      pose proof (slice_length _ _ _ _ SG) as LG.
      rewrite firstn_app, firstn_all2, LF, Nat.sub_diag, firstn_O, app_nil_r by lia.
      rewrite app_assoc, skipn_app, app_length, LF, LG, Nat.sub_diag, skipn_all2 by (rewrite app_length; lia).
      cbn [skipn app]. apply firstn_skipn. }
    rewrite ER. rewrite <- HL. apply slice_replace. lia.
Qed.

Lemma subdivide_correct m a size l index count out :
  slice m a size = Some l -> Forall word l -> (Z.of_nat (count + 1) < two32)%Z ->
  index + 1 < size -> (nth index l 0 <= nth (index + 1) l 0)%Z ->
  out + size + count <= length m -> disjoint a size out (size + count) ->
  times_subdivide_difference m a size index count out = Some (replace m out (subdivided l index count)).
Proof.
  intros HS HW HC HI Hle HO HD. pose proof (slice_length _ _ _ _ HS) as HL. unfold times_subdivide_difference.
  destruct (insert_space_correct m a size l (index + 1) count out HS ltac:(lia) HO HD) as [m' [E [L' [S1 [S2 HG]]]]].
  rewrite E. cbn [bind]. unfold disjoint in HD.
  assert (GA : forall i, i < size -> aget m' (a + i) = nth_error l i).
  { intros i Hi. unfold aget. rewrite HG by lia. symmetry. now apply slice_get with size. }
  destruct (nth_error_some l index) as [x Hx]; [lia|]. destruct (nth_error_some l (index + 1)) as [y Hy]; [lia|].
  rewrite !GA by lia. rewrite Hx, Hy. cbn [bind].
  rewrite (nth_error_nth _ _ _ Hx), (nth_error_nth _ _ _ Hy) in Hle.
  rewrite Forall_forall in HW.
  assert (Wx : word x) by (apply HW; eapply nth_error_In; eauto). assert (Wy : word y) by (apply HW; eapply nth_error_In; eauto).
  unfold word in *. rewrite (u32_small (y - x)) by lia. rewrite u32_small by lia. unfold t_div.
  replace (Z.of_nat (count + 1) =? 0)%Z with false by lia. cbn [bind].
  set (step := ((y - x) / Z.of_nat (count + 1))%Z).
  assert (Hstep : (0 <= step /\ Z.of_nat (count + 1) * step <= y - x)%Z).
  { unfold step. split; [apply Z.div_pos; lia|]. apply Z.mul_div_le. lia. }
  pose (mid := fun n => map (fun k => x + Z.of_nat k * step)%Z (seq 1 n)).
  assert (LM : forall n, length (mid n) = n) by (intro; unfold mid; now rewrite map_length, seq_length).
  destruct (for_inv (fun i m2 => m2 = replace m' (out + index + 1) (mid (i - (index + 1))))
    (fun i m => x <- aget m (out + (i - 1)) ;; aset m (out + i) (t_add x step)) (index + 1) (index + (count + 1)) m') as [m2 [E2 ->]].
  - lia.
  - rewrite Nat.sub_diag. cbn. now rewrite replace_nil.
  - intros i m2 Hi ->. exists (replace m' (out + index + 1) (mid (S i - (index + 1)))). split; [|reflexivity].
    assert (V : aget (replace m' (out + index + 1) (mid (i - (index + 1)))) (out + (i - 1)) = Some (x + Z.of_nat (i - (index + 1)) * step)%Z).
    { unfold aget. rewrite replace_get by (rewrite LM; lia). rewrite LM.
      destruct (Nat.eq_dec i (index + 1)) as [->|].
      - rewrite Nat.sub_diag. replace ((out + index + 1 <=? out + (index + 1 - 1)) && (out + (index + 1 - 1) <? out + index + 1 + 0)) with false by lia.
        replace (out + (index + 1 - 1)) with (out + index) by lia. rewrite <- (slice_get _ _ _ _ _ S1) by lia.
        rewrite nth_error_firstn, Hx by lia. f_equal. lia.
      - replace ((out + index + 1 <=? out + (i - 1)) && (out + (i - 1) <? out + index + 1 + (i - (index + 1)))) with true by lia.
        unfold mid. rewrite map_nth_error_seq by lia. f_equal. f_equal. f_equal. f_equal. lia. }
    rewrite V. cbn [bind]. unfold t_add.
    assert (Hs : (x + Z.of_nat (i - (index + 1)) * step + step = x + Z.of_nat (S i - (index + 1)) * step)%Z).
    { replace (S i - (index + 1)) with (S (i - (index + 1))) by lia. rewrite Nat2Z.inj_succ. lia. }
    rewrite Hs. rewrite u32_small by (split; [nia|]; assert (Z.of_nat (S i - (index + 1)) * step <= Z.of_nat (count + 1) * step)%Z by nia; lia).
    pose proof (replace_snoc m' (out + index + 1) (mid (i - (index + 1))) (x + Z.of_nat (S i - (index + 1)) * step)%Z) as RS. rewrite LM in RS.
    replace (out + index + 1 + (i - (index + 1))) with (out + i) in RS by lia. rewrite RS by lia. f_equal. f_equal.
    replace (S i - (index + 1)) with (S (i - (index + 1))) by lia. unfold mid. rewrite seq_S, map_app. reflexivity.
  - rewrite E2. f_equal. replace (index + (count + 1) - (index + 1)) with count by lia.
    assert (LF : length (firstn (index + 1) l) = index + 1) by (rewrite firstn_length; lia).
    assert (LS : length (skipn (index + 1) l) = size - (index + 1)) by (rewrite skipn_length; lia).
    assert (SE : subdivided l index count = firstn (index + 1) l ++ mid count ++ skipn (index + 1) l).
    { unfold subdivided, mid. rewrite (nth_error_nth _ _ _ Hx), (nth_error_nth _ _ _ Hy). reflexivity. }
    rewrite SE. apply nth_error_ext. intro j.
    assert (LT : length (firstn (index + 1) l ++ mid count ++ skipn (index + 1) l) = size + count) by (rewrite !app_length, LF, LM, LS; lia).
    rewrite !replace_get by (rewrite ?LT, ?LM; lia). rewrite LT, LM.
    destruct (Nat.lt_ge_cases j out). { rewrite HG by lia. bd; auto; lia. }
    destruct (Nat.lt_ge_cases j (out + size + count)).
    2: { rewrite HG by lia. bd; auto; lia. }
    replace ((out <=? j) && (j <? out + (size + count))) with true by lia.
    destruct (Nat.lt_ge_cases j (out + (index + 1))).
    { rewrite nth_error_app1 by lia. replace ((out + index + 1 <=? j) && (j <? out + index + 1 + count)) with false by lia.
      rewrite (slice_get _ _ _ _ _ S1) by lia. f_equal. lia. }
    rewrite nth_error_app2, LF by lia.
    destruct (Nat.lt_ge_cases j (out + index + 1 + count)).
    { rewrite nth_error_app1 by (rewrite LM; lia). replace ((out + index + 1 <=? j) && (j <? out + index + 1 + count)) with true by lia. f_equal. lia. }
    rewrite nth_error_app2, LM by (rewrite LM; lia). replace ((out + index + 1 <=? j) && (j <? out + index + 1 + count)) with false by lia.
    rewrite (slice_get _ _ _ _ _ S2) by lia. f_equal. lia.
Qed.

(** ** sequences *)
Lemma number_bound base ds : (0 < base)%Z -> Forall (digit base) ds -> (0 <= number base ds < base ^ Z.of_nat (length ds))%Z.
Proof.
  intros Hb HF. induction HF as [|d ds Hd HF IH]; [cbn; lia|]. cbn [number length]. unfold digit in Hd.
  rewrite Nat2Z.inj_succ, Z.pow_succ_r by lia. nia.
Qed.
Lemma number_inj base : (0 < base)%Z -> forall a b, length a = length b -> Forall (digit base) a -> Forall (digit base) b ->
  number base a = number base b -> a = b.
Proof.
  intro Hb. induction a as [|x a IH]; intros [|y b] HL HA HB E; try discriminate; [reflexivity|].
  inversion HA; inversion HB; subst. cbn [number] in E. unfold digit in *.
  assert (x = y /\ number base a = number base b) as [-> E2].
  { assert (Hx : ((x + base * number base a) mod base = x)%Z) by (rewrite Z.mul_comm, Z.mod_add by lia; apply Z.mod_small; lia).
    assert (Hy : ((y + base * number base b) mod base = y)%Z) by (rewrite Z.mul_comm, Z.mod_add by lia; apply Z.mod_small; lia).
    assert (x = y) by congruence. subst. split; [reflexivity|]. nia. }
  f_equal. apply IH; auto.
Qed.

(** the digits after adding one *)
Fixpoint increment (base : Z) (ds : list Z) : list Z :=
  match ds with [] => [] | d :: ds => if (d <? base - 1)%Z then (d + 1)%Z :: ds else 0%Z :: increment base ds end.
Lemma increment_length base ds : length (increment base ds) = length ds.
Proof. induction ds as [|d ds IH]; cbn; [reflexivity|]. destruct (d <? base - 1)%Z; cbn; auto. Qed.
Lemma increment_digits base ds : (0 < base)%Z -> Forall (digit base) ds -> Forall (digit base) (increment base ds).
Proof.
  intros Hb HF. induction HF as [|d ds Hd HF IH]; cbn; [constructor|]. unfold digit in *.
  destruct (Z.ltb_spec d (base - 1)); constructor; auto; lia.
Qed.
Lemma increment_number base ds : (0 < base)%Z -> Forall (digit base) ds ->
  number base (increment base ds) = ((number base ds + 1) mod base ^ Z.of_nat (length ds))%Z.
Proof.
  intros Hb HF. induction HF as [|d ds Hd HF IH]; [reflexivity|]. pose proof (number_bound base ds Hb HF) as HN.
  unfold digit in Hd. cbn [increment length]. rewrite Nat2Z.inj_succ, Z.pow_succ_r by lia. set (B := (base ^ Z.of_nat (length ds))%Z) in *.
  assert (HB : (0 < B)%Z) by (apply Z.pow_pos_nonneg; lia).
  destruct (Z.ltb_spec d (base - 1)); cbn [number].
  - rewrite Z.mod_small; [lia|]. nia.
  - rewrite IH. replace (d + base * number base ds + 1)%Z with (base * (number base ds + 1))%Z by nia.
    rewrite Z.mul_mod_distr_l by lia. lia.
Qed.

Lemma sequence_increment_is m p ds base : (0 < base <= two32)%Z -> Forall (digit base) ds -> slice m p (length ds) = Some ds ->
  sequence_increment m p (length ds) base = Some (replace m p (increment base ds)).
Proof.
  intros Hb HF HS. unfold sequence_increment. pose proof (slice_bound _ _ _ _ HS) as HB.
  unfold for_. rewrite Nat.sub_0_r.
  set (body := fun (i : nat) '(stop, m) => if (stop : bool) then Some (true, m)
    else x <- aget m (p + i) ;;
      if (x <? u32 (base - 1))%Z then m <- aset m (p + i) (t_add x 1) ;; Some (true, m)
      else m <- aset m (p + i) 0%Z ;; Some (false, m)).
  assert (STOP : forall n lo m, for_from lo n body (true, m) = Some (true, m)).
  { induction n as [|n IH]; intros lo m0; [reflexivity|]. cbn [for_from]. unfold body at 1. cbn [bind]. apply IH. }
  assert (G : forall rest lo m0, Forall (digit base) rest -> p + lo + length rest <= length m0 ->
    slice m0 (p + lo) (length rest) = Some rest ->
    exists b, for_from lo (length rest) body (false, m0) = Some (b, replace m0 (p + lo) (increment base rest))).
  { induction rest as [|d rest IH]; intros lo m0 HF0 HL0 HS0.
    - cbn. rewrite replace_nil. eauto.
    - cbn [length for_from]. unfold body at 1. inversion HF0 as [|? ? Hd HF1]; subst. unfold digit in Hd.
      cbn [length] in *.
      assert (G0 : aget m0 (p + lo) = Some d).
      { unfold aget. rewrite <- (Nat.add_0_r (p + lo)), <- (slice_get _ _ _ _ 0 HS0) by lia. reflexivity. }
      rewrite G0. cbn [bind]. rewrite u32_small by lia.
      assert (HS1 : slice m0 (p + lo + 1) (length rest) = Some rest).
      { pose proof (slice_sub _ _ _ _ 1 (length rest) HS0 ltac:(lia)) as T. cbn [skipn] in T. now rewrite firstn_all in T. }
      cbn [increment]. destruct (Z.ltb_spec d (base - 1)).
      + unfold t_add. rewrite u32_small by lia.
        pose proof (replace_snoc m0 (p + lo) [] (d + 1)%Z) as RS. rewrite replace_nil in RS. cbn [length app] in RS. rewrite Nat.add_0_r in RS.
        rewrite RS by lia. cbn [bind]. rewrite STOP. exists true. f_equal. f_equal.
        change ((d + 1)%Z :: rest) with ([(d + 1)%Z] ++ rest).
        rewrite <- (replace_app m0 (p + lo) [(d + 1)%Z] rest) by (cbn; lia). cbn [length].
        symmetry. apply nth_error_ext. intro j. rewrite replace_get by (rewrite replace_length; cbn; lia).
        destruct ((p + lo + 1 <=? j) && (j <? p + lo + 1 + length rest)) eqn:Ej; [|reflexivity].
        assert (HS2 : slice (replace m0 (p + lo) [(d + 1)%Z]) (p + lo + 1) (length rest) = Some rest).
        { apply slice_replace_other; [cbn; lia|unfold disjoint; cbn; lia|].
          pose proof (slice_sub _ _ _ _ 1 (length rest) HS0 ltac:(lia)) as T. cbn [skipn] in T. now rewrite firstn_all in T. }
        rewrite (slice_get _ _ _ _ _ HS2) by lia. f_equal. lia.
      + pose proof (replace_snoc m0 (p + lo) [] 0%Z) as RS. rewrite replace_nil in RS. cbn [length app] in RS. rewrite Nat.add_0_r in RS.
        rewrite RS by lia. cbn [bind].
        destruct (IH (S lo) (replace m0 (p + lo) [0%Z]) HF1) as [b Eb].
        * rewrite replace_length; cbn; lia.
        * replace (p + S lo) with (p + lo + 1) by lia. apply slice_replace_other; [cbn; lia|unfold disjoint; cbn; lia|exact HS1].
        * exists b. rewrite Eb. f_equal. f_equal. replace (p + S lo) with (p + lo + length [0%Z]) by (cbn; lia).
          rewrite replace_app; [reflexivity|]. cbn. rewrite increment_length. lia. }
  destruct (G ds 0 m HF) as [b Eb]; [lia|rewrite Nat.add_0_r; exact HS|].
  rewrite Eb. cbn [bind]. now rewrite Nat.add_0_r.
Qed.

Lemma sequence_increment_correct m p size ds base :
  (0 < base <= two32)%Z -> slice m p size = Some ds -> Forall (digit base) ds ->
  exists ds', sequence_increment m p size base = Some (replace m p ds') /\ length ds' = size /\ Forall (digit base) ds' /\
  number base ds' = ((number base ds + 1) mod base ^ Z.of_nat size)%Z.
Proof.
  intros Hb HS HF. pose proof (slice_length _ _ _ _ HS) as HL. subst size. exists (increment base ds). splits.
  - now apply sequence_increment_is.
  - apply increment_length.
  - apply increment_digits; auto. lia.
  - apply increment_number; auto. lia.
Qed.

Lemma sequences_correct m out base digits n ds0 :
  (0 < base <= two32)%Z -> 0 < n -> 0 < digits -> slice m out digits = Some ds0 -> Forall (digit base) ds0 -> out + digits * n <= length m ->
  exists L : list (list Z),
    times_sequences base digits n m out = Some (replace m out (concat L)) /\ length L = n /\
    forall k ds, nth_error L k = Some ds ->
      length ds = digits /\ Forall (digit base) ds /\ number base ds = ((number base ds0 + Z.of_nat k) mod base ^ Z.of_nat digits)%Z.
Proof.
  intros Hb Hn Hd HS HF HO. pose proof (slice_length _ _ _ _ HS) as HL. unfold times_sequences.
  destruct (Nat.eqb_spec digits 0); [lia|].
  set (B := (base ^ Z.of_nat digits)%Z). assert (HB : (0 < B)%Z) by (apply Z.pow_pos_nonneg; lia).
  pose (ok := fun (k : nat) (ds : list Z) => length ds = digits /\ Forall (digit base) ds /\ number base ds = ((number base ds0 + Z.of_nat k) mod B)%Z).
  destruct (for_inv (fun k m' => exists L, m' = replace m out (concat L) /\ length L = k /\ length (concat L) = digits * k /\ 0 < k /\
     forall i ds, nth_error L i = Some ds -> ok i ds)
    (fun k m => m <- mem_copy m (out + digits * k) (out + (digits * k - digits)) digits ;;
       sequence_increment m (out + digits * k) digits base) 1 n m) as [m' [E [L [-> [LL [LC [_ HOK]]]]]]].
  - lia.
  - exists [ds0]. splits; auto.
    + cbn. rewrite app_nil_r. apply nth_error_ext. intro j. rewrite replace_get by (pose proof (slice_bound _ _ _ _ HS); lia).
      destruct ((out <=? j) && (j <? out + length ds0)) eqn:Ej; [|reflexivity]. rewrite (slice_get _ _ _ _ _ HS) by lia. f_equal. lia.
    + cbn. rewrite app_nil_r. lia.
    + intros [|i] ds Hi; [|destruct i; discriminate]. cbn in Hi. injection Hi as <-. unfold ok. splits; auto.
      rewrite Z.mod_small; [lia|]. rewrite Z.add_0_r. unfold B. rewrite <- HL. apply number_bound; auto. lia.
  - intros k m' Hk [L [-> [LL [LC [Hk0 HOK]]]]].
    assert (Hlast : exists L1 dl, L = L1 ++ [dl]).
    { destruct (exists_last (l := L)) as [L1 [dl ->]]; [intro; subst; cbn in *; lia|eauto]. }
    destruct Hlast as [L1 [dl ->]]. rewrite app_length in LL. cbn in LL.
    assert (OKl : ok (length L1) dl) by (apply HOK; rewrite nth_error_app2, Nat.sub_diag by lia; reflexivity).
    destruct OKl as [O1 [O2 O3]]. rewrite concat_app in *. cbn [concat] in *. rewrite app_nil_r in *.
    assert (LC1 : length (concat L1) = digits * k - digits) by (rewrite app_length in LC; lia).
    assert (digits * S k <= digits * n) by (apply Nat.mul_le_mono_l; lia). rewrite Nat.mul_succ_r in *.
    assert (digits <= digits * k) by nia.
    assert (SL : slice (replace m out (concat L1 ++ dl)) (out + (digits * k - digits)) digits = Some dl).
    { rewrite <- (replace_app m out (concat L1) dl) by lia. rewrite LC1. apply slice_replace_n; [exact O1|]. rewrite replace_length; lia. }
    rewrite (mem_copy_correct _ (out + digits * k) _ digits dl SL) by (rewrite ?replace_length by lia; unfold disjoint; lia). cbn [bind].
    replace (out + digits * k) with (out + length (concat L1 ++ dl)) by lia. rewrite replace_app by (rewrite (app_length _ dl); lia).
    assert (SI : slice (replace m out ((concat L1 ++ dl) ++ dl)) (out + length (concat L1 ++ dl)) (length dl) = Some dl).
    { rewrite <- (replace_app m out) by (rewrite app_length; lia). apply slice_replace. rewrite replace_length; lia. }
    pose proof (sequence_increment_is _ _ _ base Hb O2 SI) as EI. rewrite O1 in EI. rewrite EI. clear EI.
    exists (replace m out (concat ((L1 ++ [dl]) ++ [increment base dl]))). split.
    + f_equal. rewrite !concat_app. cbn [concat]. rewrite !app_nil_r.
      rewrite <- (replace_app m out (concat L1 ++ dl) dl) by (rewrite (app_length _ dl); lia).
      rewrite <- (replace_app m out (concat L1 ++ dl) (increment base dl)) by (rewrite (app_length _ (increment base dl)), increment_length; lia).
      set (q := out + length (concat L1 ++ dl)). set (mm := replace m out (concat L1 ++ dl)).
      assert (Lmm : length mm = length m) by (apply replace_length; lia).
      apply nth_error_ext. intro j. rewrite !replace_get; rewrite ?replace_length; rewrite ?increment_length; try (unfold q; lia).
      bd; auto; lia.
    + exists ((L1 ++ [dl]) ++ [increment base dl]). splits; auto.
      * rewrite !app_length. cbn. lia.
      * rewrite !concat_app. cbn. rewrite !app_nil_r. rewrite app_length, increment_length. rewrite O1. lia.
      * intros i ds Hi. destruct (Nat.lt_ge_cases i (length (L1 ++ [dl]))).
        -- rewrite nth_error_app1 in Hi by lia. now apply HOK.
        -- rewrite nth_error_app2 in Hi by lia. rewrite app_length in *. cbn [length] in *.
           destruct (i - (length L1 + 1)) eqn:Ei; [|cbn in Hi; destruct n1; discriminate]. cbn in Hi. injection Hi as <-.
           replace i with (S (length L1)) by lia. unfold ok. splits.
           ++ rewrite increment_length. exact O1.
           ++ apply increment_digits; auto. lia.
           ++ rewrite increment_number by (auto; lia). rewrite O1, O3. fold B. rewrite Nat2Z.inj_succ.
              rewrite Zplus_mod_idemp_l. f_equal. lia.
  - exists L. splits; auto.
Qed.

(** all digit strings, once *)
Lemma sequences_enumerate base digits ds0 (L : list (list Z)) :
  (0 < base)%Z -> Z.of_nat (length L) = (base ^ Z.of_nat digits)%Z ->
  (forall k ds, nth_error L k = Some ds ->
      length ds = digits /\ Forall (digit base) ds /\ number base ds = ((number base ds0 + Z.of_nat k) mod base ^ Z.of_nat digits)%Z) ->
  forall ds, length ds = digits -> Forall (digit base) ds -> exists! k, nth_error L k = Some ds.
Proof.
  intros Hb HL H ds HD HF. set (B := (base ^ Z.of_nat digits)%Z) in *. assert (HB : (0 < B)%Z) by (apply Z.pow_pos_nonneg; lia).
  pose proof (number_bound base ds Hb HF) as HN. rewrite HD in HN. fold B in HN.
  set (z := ((number base ds - number base ds0) mod B)%Z). assert (Hz : (0 <= z < B)%Z) by (apply Z.mod_pos_bound; lia).
  destruct (nth_error_some L (Z.to_nat z)) as [ds' Hds']; [lia|].
  destruct (H _ _ Hds') as [H1 [H2 H3]].
  assert (Hsame : ds' = ds).
  { apply (number_inj base Hb); auto; [lia|]. rewrite H3, Z2Nat.id by lia. unfold z. rewrite Zplus_mod_idemp_r.
    replace (number base ds0 + (number base ds - number base ds0))%Z with (number base ds) by lia. apply Z.mod_small. exact HN. }
  subst ds'. exists (Z.to_nat z). split; [exact Hds'|].
  intros k Hk. destruct (H _ _ Hk) as [_ [_ H4]]. apply nth_error_lt in Hk.
  assert (Ek : Z.of_nat k = z).
  { unfold z. rewrite H4. rewrite Zminus_mod_idemp_l. replace (number base ds0 + Z.of_nat k - number base ds0)%Z with (Z.of_nat k) by lia.
    symmetry. apply Z.mod_small. lia. }
  lia.
Qed.

(** ** extract_in_range *)
Lemma extract_all m a size la min max out :
  slice m a size = Some la -> out + size <= length m -> readable a out size ->
  Forall (fun x => x <= max \/ min <= x)%Z la ->
  times_extract_in_range m a size min max out = Some (replace m out la, size).
Proof.
  intros HS HO HR HF. pose proof (slice_length _ _ _ _ HS) as HL. unfold times_extract_in_range.
  destruct (for_inv (fun i '(m', n) => m' = replace m out (firstn i la) /\ n = i)
    (fun i '(m, n) => x <- aget m (a + i) ;;
    if ((x <=? max) || (min <=? x))%Z then m <- aset m (out + i) x ;; Some (m, S n) else Some (m, n)) 0 size (m, 0)) as [[m' n] [E [-> ->]]].
  - lia.
  - cbn. now rewrite replace_nil.
  - intros i [m' n] Hi [-> ->]. destruct (nth_error_some la i) as [x Hx]; [lia|].
    assert (LF : length (firstn i la) = i) by (rewrite firstn_length; lia).
    unfold aget. rewrite replace_get by lia. rewrite LF. unfold readable in HR.
    replace ((out <=? a + i) && (a + i <? out + i)) with false by lia.
    rewrite <- (slice_get _ _ _ _ _ HS) by lia. rewrite Hx. cbn [bind].
    rewrite Forall_forall in HF. specialize (HF x (nth_error_In _ _ Hx)).
    replace ((x <=? max)%Z || (min <=? x)%Z) with true by lia.
    pose proof (replace_snoc m out (firstn i la) x) as RS. rewrite LF in RS. rewrite RS by lia. cbn [bind].
    exists (replace m out (firstn (S i) la), S i). splits; auto. f_equal. f_equal. f_equal.
    clear -Hx. revert i Hx. induction la as [|y r IH]; intros [|i] Hx; cbn in *; try discriminate; [congruence|]. now rewrite <- IH.
  - rewrite E. rewrite firstn_all2 by lia. reflexivity.
Qed.
