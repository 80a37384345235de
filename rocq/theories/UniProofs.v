(** Where the functions that do not do what they are for fail: for all inputs. *)
From Verif Require Import Base MiscModel MiscSpec MiscProofs ArrModel ArrSpec ArrProofs ScaleModel ScaleSpec ScaleProofs SortModel SortSpec StatProofs Stat2Proofs SortProofs Sort2Proofs CombModel CombSpec CombProofs RandModel RandSpec RandProofs Arr2Model Arr2Proofs Arr2BProofs.
From Coq Require Import QArith Qround Qabs Lqa Lia ZifyBool Sorting.Permutation Sorting.Sorted.
Open Scope nat_scope.

Lemma square_wraps t size : (two32 <= 2 * t < 2 * two32)%Z -> (0 < size)%Z -> (2 * size < two32)%Z ->
  square t size = Some (if 2 * ((t - two32 / 2) mod size) <? size then -1 else 1)%Z.
Proof.
  intros Ht Hs Hs2. rewrite <- (square_correct (t - two32 / 2) size); [|unfold two32 in *; change (4294967296 / 2)%Z with 2147483648%Z; lia|lia|lia].
  unfold square. replace (u32 (2 * (t - two32 / 2))) with (u32 (2 * t)); [reflexivity|].
  unfold u32. replace (2 * t)%Z with (2 * (t - two32 / 2) + 1 * two32)%Z by (unfold two32; change (4294967296 / 2)%Z with 2147483648%Z; lia).
  apply Z.mod_add. unfold two32. lia.
Qed.

Lemma harmonize_not_nearest a base : (0 <= a)%Z -> (0 < base)%Z -> (a + base < two32)%Z -> (0 < a mod base)%Z -> (2 * (a mod base) < base)%Z ->
  exists z near, harmonize a base 1 = Some z /\ (base | near)%Z /\ (Z.abs (near - a) < Z.abs (z - a))%Z.
Proof.
  intros ha hb hab h1 h2. destruct (harmonize_correct a base 1 ha hb hab) as (z & e & _ & _ & hz); [split; discriminate|].
  specialize (hz (Qeq_refl 1)). unfold next_multiple in hz. exists z, (a / base * base)%Z. split; [exact e|]. split; [exists (a / base)%Z; reflexivity|].
  pose proof (Z.div_mod a base ltac:(lia)) as d.
  assert (q : ((a + base - 1) / base = a / base + 1)%Z).
  { symmetry. apply (Z.div_unique_pos _ _ _ (a mod base - 1)); [lia|]. lia. }
  rewrite q in hz. nia.
Qed.

Lemma round_to_multiple_not a base : (0 < a < two32)%Z -> (0 < base)%Z -> ~ (base | a)%Z ->
  exists z, round_to_multiple a base = Some z /\ ~ (base | z)%Z.
Proof. intros h hb hd. exists a. split; [apply round_to_multiple_is_identity; lia|exact hd]. Qed.

Lemma fold_u32 k : forall a0, (0 <= a0 < two32)%Z -> (0 <= fold_left (fun s x => u32 (s + x)) k a0 < two32)%Z.
Proof. induction k as [|x k IH]; intros a0 H; cbn [fold_left]; [exact H|]. apply IH. unfold u32. apply Z.mod_pos_bound. unfold two32. lia. Qed.
Lemma normal_random_low {St} (draw : Z -> St -> option (Z * St)) min max st r st' :
  (two32 <= 32 * min)%Z -> normal_random draw min max st = Some (r, st') -> (0 <= r < min)%Z.
Proof.
  intros h e. unfold normal_random in e. destruct (random_array _ st 32 _) as [[l s]|]; [|discriminate]. cbn [bind] in e.
  set (sum := fold_left _ _ 0%Z) in e.
  assert (hs : (0 <= sum < two32)%Z) by (apply fold_u32; unfold two32; lia).
  clearbody sum. destruct (time_of _) as [v|] eqn:ev; [|discriminate]. cbn [bind] in e. injection e as -> _.
  assert (q : Qfloor (inject_Z sum / inject_Z 32) = (sum / 32)%Z) by (rewrite Zdiv_Qdiv; reflexivity).
  assert (p : (0 <= sum / 32)%Z) by (apply Z.div_pos; lia). assert (p2 : (sum / 32 < min)%Z) by (apply Z.div_lt_upper_bound; lia).
  unfold time_of in ev. rewrite q in ev. destruct (Qle_bool 0 _).
  - destruct (Z.ltb_spec (sum / 32) two32); [|discriminate]. injection ev as <-. lia.
  - destruct (Qle_bool _ _); [discriminate|]. injection ev as <-. unfold two32 in *. lia.
Qed.

Lemma and_takes_second {V} (zero : V) (lt : V -> V -> bool) (m : list V) a b n la lb out limit i x y :
  slice m a n = Some la -> slice m b n = Some lb -> out + n <= length m -> readable a out n -> readable b out n ->
  nth_error la i = Some x -> nth_error lb i = Some y -> lt x limit = false ->
  exists l, arr_and V zero lt m a b n limit out = Some (replace m out l) /\ length l = n /\ nth_error l i = Some y.
Proof.
  intros h1 h2 h3 h4 h5 hx hy hl. destruct (logic_ops V zero lt m a b n la lb out limit h1 h2 h3 h4 h5) as (_ & _ & ->). eexists. split; [reflexivity|].
  pose proof (slice_length _ _ _ _ h1) as l1. pose proof (slice_length _ _ _ _ h2) as l2. unfold map2. split.
  - rewrite map_length, combine_length. lia.
  - erewrite map_nth_error; [|]. 2:{ instantiate (1 := (x, y)). clear -hx hy. revert i lb hx hy. induction la as [|u la IH]; intros [|i] [|w lb] hx hy; cbn in *; try discriminate; [congruence|auto]. }
    cbn. rewrite hl. reflexivity.
Qed.

(** ** statistics *)
Lemma times_mean_wrong a n : 0 < n <= length a -> (two32 <= zsum (firstn n a))%Z ->
  exists m, times_mean a n = Some m /\ (m < inject_Z (zsum (firstn n a)) / inject_Z (Z.of_nat n))%Q.
Proof.
  intros h hs. destruct (times_mean_correct a n h) as (m & e & ->). eexists. split; [exact e|].
  assert (hn : (0 < inject_Z (Z.of_nat n))%Q) by (change 0%Q with (inject_Z 0); rewrite <- Zlt_Qlt; lia).
  assert (hu : (u32 (zsum (firstn n a)) < zsum (firstn n a))%Z).
  { unfold u32. pose proof (Z.mod_pos_bound (zsum (firstn n a)) two32). unfold two32 in *. lia. }
  apply Qlt_shift_div_l; [exact hn|]. unfold Qdiv. rewrite <- Qmult_assoc, (Qmult_comm (/ _)), Qmult_inv_r by lra. rewrite Qmult_1_r, <- Zlt_Qlt. exact hu.
Qed.
Lemma times_center_wrong first rest : (0 < first < two32)%Z -> let a := first :: rest in
  (0 <= first + zsum a < two32)%Z -> (0 < zsum a)%Z -> (0 < zweighted 0 a < two32)%Z ->
  exists c, times_center a (length a) = Some c /\ (c < inject_Z (zweighted 0 a) / inject_Z (zsum a))%Q.
Proof.
  intros hf a h1 hz h2. destruct (times_center_correct a (length a) first) as [e|e]; [cbn [a length]; lia|reflexivity| |exfalso; apply e; symmetry; apply u32_small; lia].
  eexists. split; [exact e|]. rewrite firstn_all. rewrite !u32_small by lia.
  assert (k1 : (0 < inject_Z (zsum a))%Q) by (change 0%Q with (inject_Z 0); rewrite <- Zlt_Qlt; lia).
  assert (k2 : (inject_Z (zsum a) < inject_Z (first + zsum a))%Q) by (rewrite <- Zlt_Qlt; lia).
  assert (k3 : (0 < inject_Z (zweighted 0 a))%Q) by (change 0%Q with (inject_Z 0); rewrite <- Zlt_Qlt; lia).
  apply Qlt_shift_div_l; [exact k1|]. unfold Qdiv. rewrite <- Qmult_assoc. rewrite <- (Qmult_1_r (inject_Z (zweighted 0 a))) at 2.
  rewrite !(Qmult_comm (inject_Z (zweighted 0 a))). apply Qmult_lt_compat_r; [exact k3|]. rewrite Qmult_comm. apply Qlt_shift_div_r; lra.
Qed.
Lemma median_odd_wrong {V} (less : V -> V -> bool) single pair before after (a : list V) r : strict_weak_order less ->
  2 < length a -> (Z.of_nat (length a) < two32)%Z -> Nat.odd (length a) = true -> median less single pair before after a = Some r ->
  exists s x y, sorting_of less a s /\ nth_error s (length a / 2) = Some x /\ nth_error s (length a / 2 - 1) = Some y /\ r = single y.
Proof.
  intros ho h1 h2 h3 e. destruct (median_odd less single pair before after a r ho h1 h2 h3 e) as (s & y & h4 & h5 & h6).
  destruct (nth_error_some s (length a / 2)) as [x hx]. { rewrite <- (Permutation_length (proj1 h4)). apply Nat.div_lt; lia. } exists s, x, y. auto.
Qed.

Lemma scale_to_times_positive a n max out lo hi : 0 < n <= length a -> n <= length out -> (0 <= max < two32)%Z ->
  minimum_of Qle lo (firstn n a) -> maximum_of Qle hi (firstn n a) -> (0 <= lo < hi)%Q -> (hi * (inject_Z max / (hi - lo)) + (1 # 2) < inject_Z two32)%Q ->
  exists out', scale_to_times a n max out = Some out' /\ length out' = length out /\
    (forall i, i < n -> exists x y, nth_error a i = Some x /\ nth_error out' i = Some y /\ rounded (x * (inject_Z max / (hi - lo))) y) /\
    (forall i, n <= i -> nth_error out' i = nth_error out i).
Proof.
  intros hn ho hm hmin hmax [hlo hlh] hover.
  destruct (samples_range_correct a n hn) as (mi & ma & e & [h1 h2] & [h3 h4]).
  assert (emi : (mi == lo)%Q) by (destruct hmin as [k1 k2]; rewrite Forall_forall in k2, h2; apply Qle_antisym; auto).
  assert (ema : (ma == hi)%Q) by (destruct hmax as [k1 k2]; rewrite Forall_forall in k2, h4; apply Qle_antisym; auto).
  unfold scale_to_times. rewrite e. cbn [bind].
  replace (Qeq_bool (ma - mi) 0) with false by (symmetry; destruct (Qeq_bool (ma - mi) 0) eqn:q; auto; apply Qeq_bool_iff in q; lra).
  replace (Qlt_bool mi 0) with false by (symmetry; destruct (Qlt_bool mi 0) eqn:q; auto; apply Qlt_bool_iff in q; lra).
  assert (hmq : (0 <= inject_Z max)%Q) by (change 0%Q with (inject_Z 0); rewrite <- Zle_Qle; lia).
  assert (hf : (inject_Z max / (ma - mi) == inject_Z max / (hi - lo))%Q) by (rewrite emi, ema; reflexivity).
  assert (hf0 : (0 <= inject_Z max / (hi - lo))%Q) by (apply Qle_shift_div_l; lra).
  destruct (tab_loop (fun i => x <- aget a i ;; cheap_round ((x + 0) * (inject_Z max / (ma - mi)))%Q)
    (fun i v => exists x, nth_error a i = Some x /\ rounded (x * (inject_Z max / (hi - lo))) v) n out) as (out' & e1 & e2 & e3 & e4); auto.
  - intros i hi2. destruct (nth_error_some a i) as [x hx]; [lia|]. unfold aget. rewrite hx. cbn [bind].
    assert (hin : In x (firstn n a)) by (apply nth_error_In with i; rewrite nth_error_firstn by lia; auto).
    rewrite Forall_forall in h2, h4. pose proof (h2 _ hin) as k1. pose proof (h4 _ hin) as k2.
    assert (eq : ((x + 0) * (inject_Z max / (ma - mi)) == x * (inject_Z max / (hi - lo)))%Q) by (rewrite hf; ring).
    assert (k3 : (0 <= x * (inject_Z max / (hi - lo)))%Q) by (apply Qmult_le_0_compat; lra).
    assert (k4 : (x * (inject_Z max / (hi - lo)) <= hi * (inject_Z max / (hi - lo)))%Q) by (apply Qmult_le_compat_r; lra).
    destruct (cheap_round_rounded ((x + 0) * (inject_Z max / (ma - mi)))) as (z & ez & hz); [lra|lra|].
    exists z. split; auto. exists x. split; [reflexivity|]. unfold rounded in *. rewrite eq in hz. exact hz.
  - assert (e5 : for_ 0 n (fun i out => x <- aget a i ;; v <- cheap_round ((x + 0) * (inject_Z max / (ma - mi)))%Q ;; aset out i v) out = Some out').
    { rewrite <- e1. apply for_from_ext. intros i s hi2. destruct (aget a i); reflexivity. }
    rewrite e5. exists out'. splits; auto.
    intros i hi2. destruct (e3 i hi2) as (v & _ & k1 & x & k2 & k3). exists x, v. auto.
Qed.
Lemma scale_to_times_exceeds a n max out lo hi : 0 < n <= length a -> n <= length out -> (0 < max < two32)%Z ->
  minimum_of Qle lo (firstn n a) -> maximum_of Qle hi (firstn n a) -> (0 <= lo < hi)%Q -> (hi * (inject_Z max / (hi - lo)) + (1 # 2) < inject_Z two32)%Q ->
  (hi - lo <= 2 * inject_Z max * lo)%Q ->
  exists out' y, scale_to_times a n max out = Some out' /\ In y (firstn n out') /\ (max < y)%Z.
Proof.
  intros hn ho hm hmin hmax hlh hover hex. destruct (scale_to_times_positive a n max out lo hi) as (out' & e1 & e2 & e3 & e4); auto; [lia|].
  destruct (In_nth_error _ _ (proj1 hmax)) as [i hi2]. assert (i < n). { assert (k : i < length (firstn n a)) by (apply nth_error_Some; congruence). rewrite firstn_length in k. lia. }
  destruct (e3 i H) as (x & y & k1 & k2 & k3). rewrite nth_error_firstn in hi2 by lia. rewrite k1 in hi2. injection hi2 as ->.
  exists out', y. split; [exact e1|]. split; [apply nth_error_In with i; rewrite nth_error_firstn by lia; exact k2|].
  rewrite Zlt_Qlt. unfold rounded in k3.
  assert (hd : (0 < hi - lo)%Q) by lra.
  assert (q : (hi * (inject_Z max / (hi - lo)) == inject_Z max + inject_Z max * lo / (hi - lo))%Q) by (field; lra).
  assert (q2 : (1 # 2 <= inject_Z max * lo / (hi - lo))%Q) by (apply Qle_shift_div_l; lra). lra.
Qed.

Lemma limit_abs_negative x limit : (limit < 0)%Q -> (0 <= x)%Q -> samples_limit_abs [x] 1 limit [x] = Some [limit].
Proof.
  intros h hx. unfold samples_limit_abs. cbn. replace (Qlt_bool x 0) with false by (symmetry; apply Qlt_bool_false; exact hx).
  replace (Qlt_bool limit x) with true by (symmetry; apply Qlt_bool_iff; lra). reflexivity.
Qed.

(** the last element of the distribution gives the end of the range *)
Lemma discrete_end {St} (random : St -> Z -> option (Z * St)) dist p range d st st' :
  Forall (fun x => 0 <= x)%Z (dist ++ [p]) -> (zsum dist <= d < zsum dist + p)%Z -> random st (zsum dist + p)%Z = Some (d, st') ->
  dist <> [] -> (0 <= range < two32)%Z ->
  time_random_discrete_bounded St random (cumulative (dist ++ [p])) range st = Some (range, st').
Proof.
  intros HF hd hr hn hrange. set (l := dist ++ [p]) in *. assert (hl : length l = S (length dist)) by (subst l; rewrite app_length; cbn; lia).
  assert (hz : zsum l = (zsum dist + p)%Z) by (subst l; apply zsum_snoc).
  unfold time_random_discrete_bounded, random_discrete. rewrite cumulative_length, cumulative_last by (subst l; destruct dist; discriminate). cbn [bind]. rewrite hz, hr. cbn [bind].
  assert (0 <= zsum dist)%Z. { assert (k : Forall (fun x => (0 <= x)%Z) dist) by (apply Forall_app in HF; apply HF). clear -k. induction k; cbn; [lia|]. unfold zsum in IHk. lia. }
  assert (hi : discrete_index (cumulative l) d = length dist).
  { apply (discrete_index_correct l d (length dist) HF); [lia|]. split; [lia|].
    rewrite <- hl, firstn_all. assert (k : firstn (length dist) l = dist) by (subst l; rewrite firstn_app, Nat.sub_diag, firstn_all; apply app_nil_r). rewrite k. lia. }
  rewrite hi. rewrite hl. assert (hq : length dist <> 0) by (destruct dist; [congruence|discriminate]).
  replace (S (length dist) =? 1) with false by (symmetry; apply Nat.eqb_neq; intro k; injection k; exact hq). cbn [negb need bind]. replace (S (length dist) - 1) with (length dist) by (cbn; symmetry; apply Nat.sub_0_r).
  rewrite (cheap_round_ext _ (inject_Z range)). rewrite cheap_round_int by exact hrange. reflexivity.
  field. intro k. apply hq. unfold Qeq in k. cbn [Qnum Qden inject_Z] in k. rewrite !Z.mul_1_r in k. apply (Nat2Z.inj _ 0). exact k.
Qed.
