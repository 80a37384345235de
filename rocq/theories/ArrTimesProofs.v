From Verif Require Import Base ArrModel ArrSpec ArrProofs.
From Coq Require Import ZifyBool ZifyNat.

Lemma replace_snoc {A} (m : list A) p L x : p + length L < length m ->
  aset (replace m p L) (p + length L) x = Some (replace m p (L ++ [x])).
Proof.
  intro H. destruct (aset_some (replace m p L) (p + length L) x) as [m' E]; [rewrite replace_length; lia|]. rewrite E. f_equal.
  apply nth_error_ext. intro j. rewrite (aset_get _ _ _ _ j E), !replace_get by (rewrite ?app_length; cbn; lia). rewrite app_length. cbn [length].
  destruct (Nat.eqb_spec j (p + length L)) as [->|].
  - replace (p + length L - p) with (length L) by lia. rewrite nth_error_app2, Nat.sub_diag by lia. bd; auto; lia.
  - bd; auto; try lia. rewrite nth_error_app1 by lia. reflexivity.
Qed.
Lemma replace_nil {A} (m : list A) p : replace m p [] = m.
Proof. unfold replace. cbn. rewrite Nat.add_0_r. apply firstn_skipn. Qed.

(** ** bits *)
Lemma land_pow2 x b : (0 <= b)%Z -> (Z.land x (2 ^ b) =? 0)%Z = negb (Z.testbit x b).
Proof.
  intro Hb. destruct (Z.testbit x b) eqn:E; cbn.
  - apply Z.eqb_neq. intro H. assert (T : Z.testbit (Z.land x (2 ^ b)) b = true) by (rewrite Z.land_spec, E, Z.pow2_bits_true by lia; reflexivity).
    rewrite H, Z.bits_0 in T. discriminate.
  - apply Z.eqb_eq. apply Z.bits_inj'. intros n Hn. rewrite Z.land_spec, Z.bits_0, Z.pow2_bits_eqb by lia.
    destruct (Z.eqb_spec b n) as [->|]; [now rewrite E|apply andb_false_r].
Qed.

Lemma mask_step b : b < 32 -> u32 (Z.shiftl (2 ^ Z.of_nat b) 1) = u32 (2 ^ Z.of_nat (S b)).
Proof. intro H. rewrite Z.shiftl_mul_pow2 by lia. f_equal. rewrite Nat2Z.inj_succ, Z.pow_succ_r by lia. lia. Qed.
Lemma mask_small b : b < 32 -> u32 (2 ^ Z.of_nat b) = (2 ^ Z.of_nat b)%Z.
Proof.
  intro H. apply u32_small. split; [apply Z.pow_nonneg; lia|]. change two32 with (2 ^ 32)%Z. apply Z.pow_lt_mono_r; lia.
Qed.

Lemma bits_loop_correct m a words size out :
  slice m a (words_of_bits size) = Some words -> out + size <= length m -> disjoint a (words_of_bits size) out size ->
  forall fuel i a_i b mask,
  i = 32 * a_i + b -> i <= size -> b <= 32 -> mask = u32 (2 ^ Z.of_nat b) ->
  (if b =? 32 then 2 * (size - i) + 1 else Nat.max 1 (2 * (size - i))) <= fuel ->
  bits_loop fuel a size out i a_i b mask (replace m out (map (bit_of words) (seq 0 i))) =
  Some (replace m out (map (bit_of words) (seq 0 size))).
Proof.
  intros HW HO HD. pose proof (slice_length _ _ _ _ HW) as HLW. pose proof (slice_bound _ _ _ _ HW) as HBW.
  induction fuel as [|fuel IH]; intros i a_i b mask Hi Hs Hb Hm Hf.
  { destruct (Nat.eqb_spec b 32); lia. }
  cbn [bits_loop]. destruct (Nat.ltb_spec i size) as [Hlt|Hge].
  2: { replace i with size by lia. reflexivity. }
  destruct (Nat.ltb_spec b 32) as [Hb2|Hb2].
  - assert (Hq : i / 32 = a_i) by (subst i; rewrite Nat.mul_comm, Nat.div_add_l by lia; rewrite Nat.div_small by lia; lia).
    assert (Hr : i mod 32 = b) by (subst i; rewrite Nat.add_comm, Nat.mul_comm, Nat.mod_add by lia; apply Nat.mod_small; lia).
    assert (Hai : a_i < words_of_bits size).
    { unfold words_of_bits. apply Nat.div_le_lower_bound; lia. }
    destruct (nth_error_some words a_i) as [x Hx]; [lia|].
    unfold aget. rewrite replace_get by (rewrite map_length, seq_length; lia). rewrite map_length, seq_length.
    unfold disjoint in HD.
    replace ((out <=? a + a_i) && (a + a_i <? out + i)) with false by (bd; auto; lia).
    rewrite <- (slice_get _ _ _ _ _ HW Hai), Hx. cbn [bind]. rewrite Hm, mask_small, land_pow2 by lia.
    assert (EB : (if negb (Z.testbit x (Z.of_nat b)) then 0 else 1)%Z = bit_of words i).
    { unfold bit_of. rewrite Hq, Hr, (nth_error_nth _ _ _ Hx). destruct (Z.testbit x (Z.of_nat b)); reflexivity. }
    rewrite EB. pose proof (replace_snoc m out (map (bit_of words) (seq 0 i)) (bit_of words i)) as RS.
    rewrite map_length, seq_length in RS. rewrite RS by lia. cbn [bind].
    replace (map (bit_of words) (seq 0 i) ++ [bit_of words i]) with (map (bit_of words) (seq 0 (S i))) by (rewrite seq_S, map_app; reflexivity).
    apply IH; try lia.
    + now rewrite mask_step.
    + destruct (Nat.eqb_spec b 32); [lia|]. destruct (Nat.eqb_spec (S b) 32); lia.
  - assert (b = 32) by lia. subst b. apply IH; try lia. reflexivity.
    cbn [Nat.eqb] in *. lia.
Qed.

Lemma bits_correct m a words size out :
  slice m a (words_of_bits size) = Some words -> out + size <= length m -> disjoint a (words_of_bits size) out size ->
  times_bits_to_times m a size out = Some (replace m out (map (bit_of words) (seq 0 size))).
Proof.
  intros HW HO HD. unfold times_bits_to_times.
  rewrite <- (bits_loop_correct m a words size out HW HO HD (2 * size + 1) 0 0 0 1); auto; try lia.
  - cbn [seq map]. now rewrite replace_nil.
  - cbn [Nat.eqb]. lia.
Qed.

Lemma replace_app_l {A} (m t : list A) p L : p + length L <= length m -> replace (m ++ t) p L = replace m p L ++ t.
Proof.
  intro H. apply nth_error_ext. intro j. rewrite replace_get by (rewrite app_length; lia).
  destruct (Nat.lt_ge_cases j (length m)).
  - rewrite nth_error_app1 by lia. rewrite nth_error_app1 by (rewrite replace_length; lia). now rewrite replace_get.
  - rewrite nth_error_app2 by lia. rewrite nth_error_app2 by (rewrite replace_length; lia). rewrite replace_length by lia. bd; auto; lia.
Qed.

Lemma random_binary_correct random m size out :
  (forall n, length (random n) = n) -> out + size <= length m ->
  times_random_binary random m size out =
  Some (replace m out (map (bit_of (random (random_binary_size size))) (seq 0 size))).
Proof.
  intros HR HO. unfold times_random_binary. set (temp := random (random_binary_size size)).
  assert (HT : length temp = random_binary_size size) by apply HR. rewrite HT, Nat.eqb_refl. cbn [need bind].
  assert (HE : words_of_bits size <= length temp).
  { rewrite HT. unfold words_of_bits, random_binary_size. destruct (Nat.ltb_spec size 32).
    - pose proof (Nat.div_le_upper_bound (size + 31) 32 1). lia.
    - replace (size + 31) with (size + 31) by lia. transitivity ((size + 1 * 32) / 32); [apply Nat.div_le_mono; lia|]. rewrite Nat.div_add by lia. lia. }
  rewrite (bits_correct (m ++ temp) (length m) (firstn (words_of_bits size) temp) size out).
  - cbn [bind]. f_equal. rewrite replace_app_l by (rewrite map_length, seq_length; lia).
    assert (HL : length (replace m out (map (bit_of (firstn (words_of_bits size) temp)) (seq 0 size))) = length m)
      by (apply replace_length; rewrite map_length, seq_length; lia).
    rewrite <- HL at 1. rewrite firstn_app, Nat.sub_diag, firstn_all, firstn_O, app_nil_r. f_equal.
    apply map_ext_in. intros i Hi. apply in_seq in Hi. unfold bit_of. f_equal. f_equal.
    assert (Hd : i / 32 < words_of_bits size) by (unfold words_of_bits; apply Nat.div_le_lower_bound; [lia|]; pose proof (Nat.mul_div_le i 32); lia).
    destruct (nth_error_some temp (i / 32)) as [x Hx]; [lia|].
    rewrite (nth_error_nth _ _ _ Hx). apply nth_error_nth. now rewrite nth_error_firstn.
  - rewrite slice_some by (rewrite app_length; lia). f_equal. f_equal. rewrite skipn_app, skipn_all, Nat.sub_diag. reflexivity.
  - rewrite app_length. lia.
  - right. lia.
Qed.

(** ** gt_indices *)
Lemma filter_seq_S (P : nat -> bool) i : filter P (seq 0 (S i)) = filter P (seq 0 i) ++ (if P i then [i] else []).
Proof. rewrite seq_S, filter_app. cbn. destruct (P i); reflexivity. Qed.
Lemma filter_le {A} (P : A -> bool) l : length (filter P l) <= length l.
Proof. induction l as [|x l IH]; cbn; [lia|]. destruct (P x); cbn; lia. Qed.

Lemma gt_indices_correct m a size la n out :
  slice m a size = Some la -> out + length (indices_above n la) <= length m -> readable a out size ->
  times_gt_indices m a size n out = Some (replace m out (indices_above n la), length (indices_above n la)).
Proof.
  intros HA HO HR. pose proof (slice_length _ _ _ _ HA) as HL. unfold times_gt_indices.
  pose (pre := fun i => map Z.of_nat (filter (fun i => (n <? nth i la 0)%Z) (seq 0 i))).
  assert (HP : forall i, i <= size -> length (pre i) <= length (indices_above n la) /\ length (pre i) <= i).
  { intros i Hi. unfold pre, indices_above. rewrite !map_length. split.
    - rewrite HL. replace size with (i + (size - i)) by lia. rewrite seq_app, filter_app, app_length. lia.
    - rewrite <- (seq_length i 0) at 2. apply filter_le. }
  destruct (for_inv (fun i '(m', c) => m' = replace m out (pre i) /\ c = length (pre i))
    (fun i '(m, i2) => x <- aget m (a + i) ;;
      if (n <? x)%Z then m <- aset m (out + i2) (Z.of_nat i) ;; Some (m, S i2) else Some (m, i2)) 0 size (m, 0)) as [[m' c] [E [-> ->]]].
  - lia.
  - cbn. now rewrite replace_nil.
  - intros i [m' c] Hi [-> ->]. destruct (HP i ltac:(lia)) as [P1 P2]. destruct (HP (S i) ltac:(lia)) as [P3 _].
    destruct (nth_error_some la i) as [x Hx]; [lia|].
    unfold aget. rewrite replace_get by lia. unfold readable in HR.
    replace ((out <=? a + i) && (a + i <? out + length (pre i))) with false by (bd; auto; lia).
    rewrite <- (slice_get _ _ _ _ _ HA) by lia. rewrite Hx. cbn [bind].
    assert (HS : pre (S i) = pre i ++ (if (n <? x)%Z then [Z.of_nat i] else [])).
    { unfold pre. rewrite filter_seq_S, map_app, (nth_error_nth _ _ _ Hx). destruct (n <? x)%Z; reflexivity. }
    destruct (n <? x)%Z.
    + rewrite HS, app_length in P3. cbn in P3. rewrite replace_snoc by lia. cbn [bind].
      exists (replace m out (pre (S i)), length (pre (S i))). rewrite HS, app_length. cbn [length]. splits; auto. do 2 f_equal. lia.
    + exists (replace m out (pre i), length (pre i)). rewrite HS, app_nil_r. auto.
  - rewrite E. unfold pre, indices_above. now rewrite HL.
Qed.

(** ** select *)
Lemma select_correct m in_ la size idx ks count out :
  slice m in_ size = Some la -> slice m idx count = Some ks -> Forall (fun k => 0 <= k < Z.of_nat size)%Z ks ->
  out + count <= length m -> readable idx out count -> disjoint in_ size out count ->
  times_select m in_ idx count out = Some (replace m out (map (fun k => nth (Z.to_nat k) la 0%Z) ks)).
Proof.
  intros HI HK HF HO HR HD. pose proof (slice_length _ _ _ _ HI) as LI. pose proof (slice_length _ _ _ _ HK) as LK.
  unfold times_select.
  rewrite (for_ext _ (fun i m => v <- (k <- aget m (idx + i) ;; aget m (in_ + Z.to_nat k)) ;; aset m (out + i) v)).
  2: { intros i m0. unfold bind. destruct (aget m0 (idx + i)); [|reflexivity]. destruct (aget m0 _); reflexivity. }
  assert (HL : length (map (fun k => nth (Z.to_nat k) la 0%Z) ks) = count) by (now rewrite map_length).
  rewrite <- HL at 1. apply (loop_replace (fun i m => k <- aget m (idx + i) ;; aget m (in_ + Z.to_nat k))).
  { rewrite HL. lia. }
  intros i x m' Hx Hm Hg. assert (Hi : i < count) by (apply nth_error_lt in Hx; lia).
  rewrite nth_error_map in Hx. destruct (nth_error ks i) as [k|] eqn:Ek; [|discriminate]. cbn in Hx. injection Hx as <-.
  rewrite (readable_get m m' out idx count ks i HK HR Hi Hg), Ek. cbn [bind].
  assert (Hk : (0 <= k < Z.of_nat size)%Z) by (rewrite Forall_forall in HF; apply HF; eapply nth_error_In; eauto).
  (* the whole output region has not necessarily been written, but in_ is outside of it *)
  assert (G : nth_error m' (in_ + Z.to_nat k) = nth_error m (in_ + Z.to_nat k)).
  { destruct HD as [HD|HD]; apply Hg; lia. }
  unfold aget. rewrite G, <- (slice_get _ _ _ _ _ HI) by lia. 
  destruct (nth_error_some la (Z.to_nat k)) as [y Hy]; [lia|]. rewrite Hy. f_equal. symmetry. now apply nth_error_nth.
Qed.

Lemma bit_of_01 words i : bit_of words i = 0%Z \/ bit_of words i = 1%Z.
Proof. unfold bit_of. destruct (Z.testbit _ _); auto. Qed.

Lemma select_random_correct random m a size la out :
  (forall n, length (random n) = n) -> slice m a size = Some la -> out + size <= length m -> disjoint a size out size ->
  let chosen := select_set (random (random_binary_size size)) la in
  exists m', times_select_random random m a size out = Some (m', length chosen) /\
  length m' = length m /\ slice m' out (length chosen) = Some chosen /\
  (forall j, j < out \/ out + size <= j -> nth_error m' j = nth_error m j).
Proof.
  intros HR HA HO HD chosen. pose proof (slice_length _ _ _ _ HA) as LA. unfold times_select_random.
  rewrite random_binary_correct by auto. cbn [bind]. set (words := random (random_binary_size size)) in *.
  set (bits := map (bit_of words) (seq 0 size)). assert (LB : length bits = size) by (unfold bits; now rewrite map_length, seq_length).
  set (m1 := replace m out bits). assert (L1 : length m1 = length m) by (apply replace_length; lia).
  assert (S1 : slice m1 out size = Some bits).
  { rewrite slice_some by lia. f_equal. unfold m1, replace. rewrite skipn_app, firstn_length, skipn_all2 by (rewrite firstn_length; lia).
    replace (out - Nat.min out (length m)) with 0 by lia. cbn [skipn app]. rewrite firstn_app, firstn_all2 by lia. rewrite LB, Nat.sub_diag, firstn_O. apply app_nil_r. }
  assert (LI : length (indices_above 0 bits) <= size).
  { unfold indices_above. rewrite map_length. etransitivity; [apply filter_le|]. rewrite seq_length. lia. }
  rewrite (gt_indices_correct m1 out size bits 0%Z out S1) by (try (left; lia); lia). cbn [bind].
  set (ks := indices_above 0 bits) in *. set (m2 := replace m1 out ks). assert (L2 : length m2 = length m) by (unfold m2; rewrite replace_length; lia).
  assert (EC : map (fun k => nth (Z.to_nat k) la 0%Z) ks = chosen).
  { unfold ks, chosen, indices_above, select_set. rewrite map_map.
    assert (Hc : combine (seq 0 (length la)) la = map (fun i => (i, nth i la 0%Z)) (seq 0 (length la))).
    { clear. apply nth_error_ext. intro i. destruct (Nat.lt_ge_cases i (length la)).
      - rewrite map_nth_error_seq by lia. destruct (nth_error_some la i) as [x Hx]; [lia|].
        rewrite (nth_error_nth' _ (0, 0%Z)) by (rewrite combine_length, seq_length; lia). f_equal.
        rewrite combine_nth by (now rewrite seq_length). rewrite seq_nth by lia. reflexivity.
      - rewrite !(proj2 (nth_error_None _ _)); auto; rewrite ?map_length, ?combine_length, ?seq_length; lia. }
    rewrite Hc. rewrite LB, LA. clear -LB. 
    assert (G : forall l, (forall i, In i l -> i < size) ->
      map (fun x : nat => nth (Z.to_nat (Z.of_nat x)) la 0%Z) (filter (fun i => (0 <? nth i bits 0)%Z) l) =
      map snd (filter (fun x : nat * Z => (bit_of words (fst x) =? 1)%Z) (map (fun i => (i, nth i la 0%Z)) l))).
    { induction l as [|i l IH]; intro Hl; [reflexivity|]. cbn [map filter fst].
      assert (Hb : nth i bits 0%Z = bit_of words i).
      { unfold bits. rewrite (nth_indep _ 0%Z (bit_of words 0)) by (rewrite map_length, seq_length; apply Hl; cbn; auto).
        rewrite map_nth, seq_nth by (apply Hl; cbn; auto). reflexivity. }
      rewrite Hb. assert (IH' := IH (fun j Hj => Hl j (or_intror Hj))). clear IH.
      destruct (bit_of_01 words i) as [->| ->]; cbn [Z.ltb Z.eqb Z.compare Pos.eqb map snd]; [exact IH'|]. rewrite Nat2Z.id. f_equal. exact IH'. }
    apply G. intros i Hi. apply in_seq in Hi. lia. }
  assert (ES : slice m2 a size = Some la).
  { rewrite slice_some by (pose proof (slice_bound _ _ _ _ HA); lia). f_equal. apply nth_error_ext. intro i.
    destruct (Nat.lt_ge_cases i size).
    - rewrite nth_error_firstn, nth_error_skipn by lia. rewrite (slice_get _ _ _ _ _ HA) by lia.
      unfold m2, m1. rewrite !replace_get by (rewrite ?replace_length; lia). unfold disjoint in HD. bd; auto; lia.
    - rewrite nth_error_firstn_ge by lia. symmetry. apply nth_error_None. lia. }
  assert (SK : slice m2 out (length ks) = Some ks).
  { rewrite slice_some by lia. f_equal. unfold m2, replace. rewrite skipn_app, firstn_length, skipn_all2 by (rewrite firstn_length; lia).
    replace (out - Nat.min out (length m1)) with 0 by lia. cbn [skipn app]. rewrite firstn_app, firstn_all, Nat.sub_diag, firstn_O. apply app_nil_r. }
  assert (FK : Forall (fun k => 0 <= k < Z.of_nat size)%Z ks).
  { apply Forall_forall. intros k Hk. unfold ks, indices_above in Hk. apply in_map_iff in Hk. destruct Hk as [i [<- Hi]].
    apply filter_In in Hi. destruct Hi as [Hi _]. apply in_seq in Hi. lia. }
  rewrite (select_correct m2 a la size out ks (length ks) out ES SK FK); [|lia|left; lia|unfold disjoint in *; lia].
  cbn [bind]. rewrite EC. assert (LC : length chosen = length ks) by (rewrite <- EC; apply map_length).
  exists (replace m2 out chosen). rewrite LC. splits; auto.
  - rewrite replace_length; lia.
  - rewrite slice_some by (rewrite replace_length; lia). f_equal. unfold replace. rewrite skipn_app, firstn_length, skipn_all2 by (rewrite firstn_length; lia).
    replace (out - Nat.min out (length m2)) with 0 by lia. cbn [skipn app]. rewrite <- LC, firstn_app, firstn_all, Nat.sub_diag, firstn_O. apply app_nil_r.
  - intros j Hj. unfold m2, m1. rewrite !replace_get by (rewrite ?replace_length; rewrite ?replace_length; lia). bd; auto; lia.
Qed.
