From Verif Require Import Base ScaleModel ScaleSpec.
Open Scope nat_scope.

(** ** bytes *)
Lemma little_endian_bound l : Forall byte l -> (0 <= little_endian l < 256 ^ Z.of_nat (length l))%Z.
Proof.
  induction 1 as [|b l Hb _ IH]; [cbn; lia|]. cbn [little_endian length]. rewrite Nat2Z.inj_succ, Z.pow_succ_r by lia. unfold byte in Hb. lia.
Qed.
Lemma little_endian_inj l : forall k, Forall byte l -> Forall byte k -> length l = length k -> little_endian l = little_endian k -> l = k.
Proof.
  induction l as [|b l IH]; intros [|c k] Hl Hk HL E; try discriminate; auto. apply Forall_cons_iff in Hl as [Hb Hl]. apply Forall_cons_iff in Hk as [Hc Hk].
  cbn [little_endian] in E. unfold byte in *. assert (b = c /\ little_endian l = little_endian k) as [-> E2] by lia. f_equal. apply IH; auto.
Qed.
Lemma u64_from_array_correct a n : 1 <= n <= 8 -> n <= length a -> Forall byte a -> u64_from_array a n = Some (little_endian (firstn n a)).
Proof.
  intros Hn HL HF. unfold byte in HF.
  assert (C : n = 1 \/ n = 2 \/ n = 3 \/ n = 4 \/ n = 5 \/ n = 6 \/ n = 7 \/ n = 8) by lia.
  destruct a as [|a0 a]; [cbn in HL; lia|]. apply Forall_cons_iff in HF as [B0 HF].
  destruct C as [->|C]; [cbn -[Z.add Z.mul]; f_equal; lia|].
  destruct a as [|a1 a]; [cbn in HL; lia|]. apply Forall_cons_iff in HF as [B1 HF].
  destruct C as [->|C]; [cbn -[Z.add Z.mul]; f_equal; lia|].
  destruct a as [|a2 a]; [cbn in HL; lia|]. apply Forall_cons_iff in HF as [B2 HF].
  destruct C as [->|C]; [cbn -[u64 Z.shiftl Z.add Z.mul]; f_equal; rewrite Z.shiftl_mul_pow2 by lia; rewrite u64_small; unfold two64; lia|].
  destruct a as [|a3 a]; [cbn in HL; lia|]. apply Forall_cons_iff in HF as [B3 HF].
  destruct C as [->|C]; [cbn -[Z.add Z.mul]; f_equal; lia|].
  destruct a as [|a4 a]; [cbn in HL; lia|]. apply Forall_cons_iff in HF as [B4 HF].
  destruct C as [->|C]; [cbn -[u64 Z.shiftl Z.add Z.mul]; f_equal; rewrite Z.shiftl_mul_pow2 by lia; rewrite u64_small; unfold two64; lia|].
  destruct a as [|a5 a]; [cbn in HL; lia|]. apply Forall_cons_iff in HF as [B5 HF].
  destruct C as [->|C]; [cbn -[u64 Z.shiftl Z.add Z.mul]; f_equal; rewrite Z.shiftl_mul_pow2 by lia; rewrite u64_small; unfold two64; lia|].
  destruct a as [|a6 a]; [cbn in HL; lia|]. apply Forall_cons_iff in HF as [B6 HF].
  destruct C as [->|C]; [cbn -[u64 Z.shiftl Z.add Z.mul]; f_equal; rewrite !Z.shiftl_mul_pow2 by lia; rewrite u64_small; unfold two64; lia|].
  destruct a as [|a7 a]; [cbn in HL; lia|]. apply Forall_cons_iff in HF as [B7 HF].
  subst n. cbn -[two32 Z.add Z.mul]. f_equal. unfold two32. lia.
Qed.

(** ** interleaving *)
Section Interleave.
Variable V : Type.

Lemma interleave_channels_correct (a : list (list V)) frame C : (forall c ch, nth_error a c = Some ch -> frame < length ch) -> (Z.of_nat (frame * C + C) < two32)%Z ->
  forall channel b, channel <= C -> channel <= length a -> frame * C + channel <= length b ->
  exists b', interleave_channels V a frame channel b (Z.of_nat (frame * C + channel)) = Some (b', Z.of_nat (frame * C)) /\ length b' = length b /\
  (forall c, c < channel -> exists ch x, nth_error a c = Some ch /\ nth_error ch frame = Some x /\ nth_error b' (frame * C + c) = Some x) /\
  (forall j, j < frame * C \/ frame * C + channel <= j -> nth_error b' j = nth_error b j).
Proof.
  intros HA HW. induction channel as [|channel IH]; intros b H1 H2 H3; cbn [interleave_channels].
  - rewrite Nat.add_0_r. exists b. splits; auto. intros; lia.
  - replace (u32 (Z.of_nat (frame * C + S channel) - 1)) with (Z.of_nat (frame * C + channel)) by (rewrite u32_small; lia). rewrite Nat2Z.id.
    destruct (nth_error_some a channel ltac:(lia)) as [ch Hch]. destruct (nth_error_some ch frame (HA _ _ Hch)) as [x Hx]. unfold aget at 1. rewrite Hch. cbn [bind]. unfold aget at 1. rewrite Hx. cbn [bind].
    destruct (aset_some b (frame * C + channel) x) as [b1 E1]; [lia|]. rewrite E1. cbn [bind].
    pose proof (aset_length _ _ _ _ E1) as L1. destruct (IH b1) as [b' [E [L [G K]]]]; try lia.
    exists b'. splits; auto.
    + congruence.
    + intros c Hc. destruct (Nat.eq_dec c channel) as [->|NE].
      * exists ch, x. splits; auto. rewrite K by lia. rewrite (aset_get _ _ _ _ _ E1). bd; auto; lia.
      * apply G. lia.
    + intros j Hj. rewrite K by lia. rewrite (aset_get _ _ _ _ j E1). bd; auto; lia.
Qed.
Lemma interleave_frames_correct (a : list (list V)) C n : length a = C -> (forall c ch, nth_error a c = Some ch -> n <= length ch) -> (Z.of_nat (n * C) < two32)%Z ->
  forall frames b, frames <= n -> n * C <= length b ->
  exists b', interleave_frames V a frames C b (Z.of_nat (frames * C)) = Some b' /\ length b' = length b /\ interleaved a b' frames /\
  (forall j, frames * C <= j -> nth_error b' j = nth_error b j).
Proof.
  intros HC HA HW. induction frames as [|frame IH]; intros b H1 H2; cbn [interleave_frames].
  - exists b. splits; auto. intros i c Hi. lia.
  - replace (S frame * C) with (frame * C + C) by lia.
    destruct (interleave_channels_correct a frame C) with (channel := C) (b := b) as [b1 [E1 [L1 [G1 K1]]]]; try nia.
    { intros c ch Hc. specialize (HA c ch Hc). lia. }
    rewrite E1. cbn [bind]. destruct (IH b1) as [b' [E [L [G K]]]]; try lia. exists b'. splits; auto.
    + congruence.
    + intros i c Hi Hc. destruct (Nat.eq_dec i frame) as [->|NE].
      * destruct (G1 c ltac:(lia)) as [ch [x [X1 [X2 X3]]]]. exists x, ch. rewrite HC. splits; auto. rewrite K by lia. exact X3.
      * apply G; auto. lia.
    + intros j Hj. rewrite K by lia. apply K1. lia.
Qed.
Lemma interleave_correct (a : list (list V)) b n : (forall c ch, nth_error a c = Some ch -> n <= length ch) -> (Z.of_nat (n * length a) < two32)%Z -> (Z.of_nat n < two32)%Z -> n * length a <= length b ->
  exists b', interleave V a b n (length a) = Some b' /\ length b' = length b /\ interleaved a b' n /\ skipn (n * length a) b' = skipn (n * length a) b.
Proof.
  intros HA HW HN HB. unfold interleave. rewrite (u32_small (Z.of_nat n)) by lia. rewrite <- Nat2Z.inj_mul, u32_small by lia.
  destruct (interleave_frames_correct a (length a) n eq_refl HA HW n b (Nat.le_refl _) HB) as [b' [E [L [G K]]]]. exists b'. splits; auto.
  apply nth_error_ext. intro j. rewrite !nth_error_skipn. apply K. lia.
Qed.

Lemma deinterleave_channels_correct (b : list V) frame C : (Z.of_nat (frame * C + C) < two32)%Z ->
  forall channel a, channel <= C -> channel <= length a -> (forall c ch, nth_error a c = Some ch -> frame < length ch) -> frame * C + channel <= length b ->
  exists a', deinterleave_channels V b frame channel a (Z.of_nat (frame * C + channel)) = Some (a', Z.of_nat (frame * C)) /\ length a' = length a /\
  (forall c ch, nth_error a c = Some ch -> exists ch', nth_error a' c = Some ch' /\ length ch' = length ch /\
     (forall i, nth_error ch' i = if (i =? frame) && (c <? channel) then nth_error b (frame * C + c) else nth_error ch i)).
Proof.
  intros HW. induction channel as [|channel IH]; intros a H1 H2 HA H3; cbn [deinterleave_channels].
  - rewrite Nat.add_0_r. exists a. splits; auto. intros c ch Hc. exists ch. splits; auto. intro i. replace (c <? 0) with false by reflexivity. rewrite andb_false_r. reflexivity.
  - replace (u32 (Z.of_nat (frame * C + S channel) - 1)) with (Z.of_nat (frame * C + channel)) by (rewrite u32_small; lia). rewrite Nat2Z.id.
    destruct (nth_error_some b (frame * C + channel) ltac:(lia)) as [x Hx]. unfold aget at 1. rewrite Hx. cbn [bind].
    destruct (nth_error_some a channel ltac:(lia)) as [ch Hch]. unfold aget at 1. rewrite Hch. cbn [bind].
    destruct (aset_some ch frame x (HA _ _ Hch)) as [ch1 Ec]. rewrite Ec. cbn [bind].
    destruct (aset_some a channel ch1 ltac:(lia)) as [a1 Ea]. rewrite Ea. cbn [bind].
    pose proof (aset_length _ _ _ _ Ea) as La. pose proof (aset_length _ _ _ _ Ec) as Lc.
    destruct (IH a1) as [a' [E [L G]]]; try lia.
    { intros c ch0 Hc. rewrite (aset_get _ _ _ _ c Ea) in Hc. destruct (Nat.eqb_spec c channel) as [->|NE]; [injection Hc as <-; rewrite Lc|]; eapply HA; eauto. }
    exists a'. splits; auto; [congruence|]. intros c ch0 Hc. destruct (Nat.eq_dec c channel) as [->|NE].
    + assert (ch0 = ch) by congruence. subst ch0. destruct (G channel ch1) as [ch' [X1 [X2 X3]]]; [rewrite (aset_get _ _ _ _ _ Ea), Nat.eqb_refl; auto|].
      exists ch'. splits; auto; [congruence|]. intro i. rewrite X3. replace (channel <? channel) with false by (symmetry; apply Nat.ltb_irrefl). rewrite andb_false_r.
      rewrite (aset_get _ _ _ _ i Ec). assert (B : (channel <? S channel) = true) by (apply Nat.ltb_lt; lia). rewrite B, andb_true_r. destruct (i =? frame); auto.
    + destruct (G c ch0) as [ch' [X1 [X2 X3]]]; [rewrite (aset_get _ _ _ _ _ Ea); bd; auto; lia|]. exists ch'. splits; auto. intro i. rewrite X3.
      replace (c <? S channel) with (c <? channel); [reflexivity|]. bd; auto; lia.
Qed.
Lemma deinterleave_frames_correct (b : list V) C n : (Z.of_nat (n * C) < two32)%Z -> n * C <= length b ->
  forall frames a, length a = C -> (forall c ch, nth_error a c = Some ch -> n <= length ch) -> frames <= n ->
  exists a', deinterleave_frames V b frames C a (Z.of_nat (frames * C)) = Some a' /\ length a' = length a /\
  (forall c ch, nth_error a c = Some ch -> exists ch', nth_error a' c = Some ch' /\ length ch' = length ch /\
     (forall i, nth_error ch' i = if i <? frames then nth_error b (i * C + c) else nth_error ch i)).
Proof.
  intros HW HB. induction frames as [|frame IH]; intros a HC HA H1; cbn [deinterleave_frames].
  - exists a. splits; auto. intros c ch Hc. exists ch. splits; auto.
  - replace (S frame * C) with (frame * C + C) by lia.
    destruct (deinterleave_channels_correct b frame C) with (channel := C) (a := a) as [a1 [E1 [L1 G1]]]; try nia.
    { intros c ch Hc. specialize (HA c ch Hc). lia. }
    assert (HA1 : forall c ch, nth_error a1 c = Some ch -> n <= length ch).
    { intros c ch Hc. destruct (nth_error_some a c) as [ch0 Hc0]; [apply nth_error_lt in Hc; lia|]. destruct (G1 c ch0 Hc0) as [ch' [X1 [X2 X3]]].
      assert (ch' = ch) by congruence. subst ch'. specialize (HA c ch0 Hc0). lia. }
    rewrite E1. cbn [bind]. destruct (IH a1) as [a' [E [L G]]]; try lia; auto. exists a'. splits; auto; [congruence|].
    intros c ch Hc. assert (CC : c < C) by (apply nth_error_lt in Hc; lia). destruct (G1 c ch Hc) as [ch1 [X1 [X2 X3]]]. destruct (G c ch1 X1) as [ch' [Y1 [Y2 Y3]]]. exists ch'. splits; auto; [congruence|].
    intro i. rewrite Y3, X3. assert (B : (c <? C) = true) by (now apply Nat.ltb_lt). rewrite B, andb_true_r. bd; subst; auto; lia.
Qed.
Lemma deinterleave_correct (a : list (list V)) b n : (forall c ch, nth_error a c = Some ch -> n <= length ch) -> (Z.of_nat (n * length a) < two32)%Z -> (Z.of_nat n < two32)%Z -> n * length a <= length b ->
  exists a', deinterleave V a b n (length a) = Some a' /\ length a' = length a /\ interleaved a' b n /\
  (forall c ch, nth_error a c = Some ch -> exists ch', nth_error a' c = Some ch' /\ length ch' = length ch /\ skipn n ch' = skipn n ch).
Proof.
  intros HA HW HN HB. unfold deinterleave. rewrite (u32_small (Z.of_nat n)) by lia. rewrite <- Nat2Z.inj_mul, u32_small by lia.
  destruct (deinterleave_frames_correct b (length a) n HW HB n a eq_refl HA (Nat.le_refl _)) as [a' [E [L G]]]. exists a'. splits; auto.
  - intros i c Hi Hc. rewrite L in *. destruct (nth_error_some a c Hc) as [ch Hch]. destruct (G c ch Hch) as [ch' [X1 [X2 X3]]]. specialize (HA c ch Hch).
    destruct (nth_error_some b (i * length a + c)) as [x Hx]; [nia|]. exists x, ch'. splits; auto. rewrite X3. bd; auto; lia.
  - intros c ch Hc. destruct (G c ch Hc) as [ch' [X1 [X2 X3]]]. exists ch'. splits; auto. apply nth_error_ext. intro j. rewrite !nth_error_skipn, X3. bd; auto; lia.
Qed.
Lemma interleave_then_deinterleave (a : list (list V)) b n out : (forall c ch, nth_error a c = Some ch -> length ch = n) ->
  length out = length a -> (forall c ch, nth_error out c = Some ch -> length ch = n) ->
  (Z.of_nat (n * length a) < two32)%Z -> (Z.of_nat n < two32)%Z -> n * length a <= length b ->
  exists b', interleave V a b n (length a) = Some b' /\ deinterleave V out b' n (length a) = Some a.
Proof.
  intros HA HO HOL HW HN HB. destruct (interleave_correct a b n) as [b' [E [L [G _]]]]; auto.
  { intros c ch Hc. rewrite (HA c ch Hc). lia. }
  exists b'. split; auto. rewrite <- HO in *. destruct (deinterleave_correct out b' n) as [a' [E' [L' [G' K']]]]; auto; try lia.
  { intros c ch Hc. rewrite (HOL c ch Hc). lia. }
  rewrite E'. f_equal. apply nth_error_length_eq; [congruence|]. intros c Hc. rewrite L' in Hc.
  destruct (nth_error_some out c Hc) as [o Ho]. destruct (K' c o Ho) as [ch' [X1 [X2 _]]]. destruct (nth_error_some a c ltac:(lia)) as [ch Hch]. rewrite X1, Hch. f_equal.
  apply nth_error_length_eq; [rewrite X2, (HOL _ _ Ho), (HA _ _ Hch); reflexivity|]. intros i Hi. rewrite X2, (HOL _ _ Ho) in Hi.
  destruct (G i c Hi ltac:(lia)) as [x [k [Y1 [Y2 Y3]]]]. destruct (G' i c Hi ltac:(lia)) as [y [k' [Z1 [Z2 Z3]]]].
  assert (k = ch) by congruence. assert (k' = ch') by congruence. subst. rewrite Y2, Z2. rewrite L' in Z3. rewrite HO in Z3. congruence.
Qed.
Lemma deinterleave_then_interleave (a : list (list V)) b n out C : length a = C -> 0 < C -> (forall c ch, nth_error a c = Some ch -> n <= length ch) ->
  (Z.of_nat (n * C) < two32)%Z -> (Z.of_nat n < two32)%Z -> length b = n * C -> length out = n * C ->
  exists a', deinterleave V a b n C = Some a' /\ interleave V a' out n C = Some b.
Proof.
  intros HC H0 HA HW HN HB HO. subst C. destruct (deinterleave_correct a b n) as [a' [E [L [G K]]]]; auto; try lia.
  exists a'. split; auto. rewrite <- L in *. destruct (interleave_correct a' out n) as [b' [E' [L' [G' _]]]]; auto; try lia.
  { intros c ch Hc. destruct (nth_error_some a c) as [o Ho]; [apply nth_error_lt in Hc; lia|]. destruct (K c o Ho) as [ch' [X1 [X2 _]]]. assert (ch' = ch) by congruence. subst. rewrite X2. eapply HA; eauto. }
  rewrite E'. f_equal. apply nth_error_length_eq; [lia|]. intros j Hj. rewrite L', HO in Hj.
  assert (Hd : j = j / length a' * length a' + j mod length a') by (rewrite Nat.mul_comm; apply Nat.div_mod; lia).
  assert (Hm : j mod length a' < length a') by (apply Nat.mod_upper_bound; lia). assert (Hq : j / length a' < n) by (apply Nat.div_lt_upper_bound; lia).
  destruct (G _ _ Hq Hm) as [x [k [X1 [X2 X3]]]]. destruct (G' _ _ Hq Hm) as [y [k' [Y1 [Y2 Y3]]]]. rewrite <- Hd in *. congruence.
Qed.
End Interleave.
