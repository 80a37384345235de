From Verif Require Import Base MiscModel MiscSpec MiscProofs ArrModel ArrSpec ArrProofs ScaleModel ScaleSpec ScaleProofs Scale2Proofs SortModel SortSpec SortProofs Sort2Proofs.
From Coq Require Import QArith Qround Qabs Lqa Sorting.Permutation.
Open Scope nat_scope.

(** ** orders *)
Lemma ltb_order : strict_weak_order Z.ltb.
Proof. split; intros; rewrite ?Z.ltb_ge, ?Z.ltb_lt in *; lia. Qed.
Lemma qlt_order : strict_weak_order Qlt_bool.
Proof.
  split.
  - intros x y h. apply Qlt_bool_iff in h. apply Qlt_bool_false. apply Qlt_le_weak. exact h.
  - intros x y z h1 h2. apply Qlt_bool_false in h1. apply Qlt_bool_false in h2. apply Qlt_bool_false. eapply Qle_trans; eauto.
Qed.

(** ** median *)
Lemma median_even {V} (less : V -> V -> bool) single pair before after (a : list V) r : strict_weak_order less ->
  0 < length a -> (Z.of_nat (length a) < two32)%Z -> Nat.odd (length a) = false -> median less single pair before after a = Some r ->
  exists s x y, sorting_of less a s /\ nth_error s (length a / 2) = Some x /\ nth_error s (length a / 2 - 1) = Some y /\ r = pair x y.
Proof.
  intros ho h0 hw he h. unfold median in h. rewrite he in h. rewrite u32_small in h by lia.
  destruct (quicksort _ _ _ _ _) as [m|] eqn:e; [|discriminate]. cbn [bind] in h.
  rewrite Z.add_sub_assoc in e.
  destruct (quicksort_returns_sorted _ _ ho _ _ _ _ e) as (s & -> & hs).
  pose proof (Permutation_length (proj1 hs)) as hl.
  assert (hh : 1 <= length a / 2 < length a).
  { destruct a as [|x [|y a]]; cbn [length] in *; [lia|discriminate|]. split; [|apply Nat.div_lt; lia].
    apply Nat.div_le_lower_bound; lia. }
  rewrite u32_small in h by lia.
  replace (Z.of_nat (length before) + Z.of_nat (length a / 2))%Z with (Z.of_nat (length before + length a / 2)) in h by lia.
  replace (Z.of_nat (length before) + (Z.of_nat (length a / 2) - 1))%Z with (Z.of_nat (length before + (length a / 2 - 1))) in h by lia.
  rewrite !zget_nat, !nth_app_mid in h by lia.
  destruct (nth_error s (length a / 2)) as [x|] eqn:ex; [|discriminate]. destruct (nth_error s (length a / 2 - 1)) as [y|] eqn:ey; [|discriminate].
  cbn [bind] in h. injection h as <-. exists s, x, y. auto.
Qed.
Lemma median_odd {V} (less : V -> V -> bool) single pair before after (a : list V) r : strict_weak_order less ->
  2 < length a -> (Z.of_nat (length a) < two32)%Z -> Nat.odd (length a) = true -> median less single pair before after a = Some r ->
  exists s x, sorting_of less a s /\ nth_error s (length a / 2 - 1) = Some x /\ r = single x.
Proof.
  intros ho h0 hw he h. unfold median in h. rewrite he in h. rewrite u32_small in h by lia.
  destruct (quicksort _ _ _ _ _) as [m|] eqn:e; [|discriminate]. cbn [bind] in h.
  rewrite Z.add_sub_assoc in e.
  destruct (quicksort_returns_sorted _ _ ho _ _ _ _ e) as (s & -> & hs).
  pose proof (Permutation_length (proj1 hs)) as hl.
  assert (hh : 1 <= length a / 2 < length a).
  { split; [|apply Nat.div_lt; lia]. apply Nat.div_le_lower_bound; lia. }
  rewrite u32_small in h by lia.
  replace (Z.of_nat (length before) + (Z.of_nat (length a / 2) - 1))%Z with (Z.of_nat (length before + (length a / 2 - 1))) in h by lia.
  rewrite !zget_nat, !nth_app_mid in h by lia.
  destruct (nth_error s (length a / 2 - 1)) as [y|] eqn:ey; [|discriminate].
  cbn [bind] in h. injection h as <-. exists s, y. auto.
Qed.
Lemma median_returns {V} (less : V -> V -> bool) single pair before after (a : list V) lo hi : strict_weak_order less ->
  1 < length a -> (Z.of_nat (length a) < two32)%Z -> In lo before -> In hi after -> Forall (fun x => less x lo = false /\ less hi x = false) a ->
  exists r, median less single pair before after a = Some r.
Proof.
  intros ho h0 hw hlo hhi ha. unfold median. rewrite u32_small by lia. rewrite Z.add_sub_assoc.
  destruct (quicksort_sorts _ _ ho before a after lo hi hlo hhi ha) as (s & -> & hs). cbn [bind].
  pose proof (Permutation_length (proj1 hs)) as hl.
  assert (hh : 1 <= length a / 2 < length a).
  { split; [|apply Nat.div_lt; lia]. apply Nat.div_le_lower_bound; lia. }
  rewrite u32_small by lia.
  replace (Z.of_nat (length before) + Z.of_nat (length a / 2))%Z with (Z.of_nat (length before + length a / 2)) by lia.
  replace (Z.of_nat (length before) + (Z.of_nat (length a / 2) - 1))%Z with (Z.of_nat (length before + (length a / 2 - 1))) by lia.
  rewrite !zget_nat, !nth_app_mid by lia.
  destruct (nth_error_some s (length a / 2)) as [x ->]; [lia|]. destruct (nth_error_some s (length a / 2 - 1)) as [y ->]; [lia|].
  cbn [bind]. destruct (Nat.odd (length a)); eauto.
Qed.
Lemma median_single {V} (less : V -> V -> bool) single pair before after (x : V) :
  (Z.of_nat (length before + length after) < two32 - 1)%Z -> median less single pair before after [x] = None.
Proof.
  intros h. unfold median. cbn [length]. change (Nat.odd 1) with true. cbv iota.
  change (1 / 2) with 0. change (u32 (Z.of_nat 0 - 1)) with 4294967295%Z. change (u32 (Z.of_nat 1 - 1)) with 0%Z.
  unfold quicksort. cbn [quicksort_rec]. rewrite Z.add_0_r, Z.leb_refl. cbn [bind].
  unfold zget. unfold two32 in h. destruct (Z.ltb_spec (Z.of_nat (length before) + 4294967295) 0); [lia|]. unfold aget.
  replace (nth_error _ _) with (@None V); [reflexivity|]. symmetry. apply nth_error_None. rewrite !app_length. cbn [length]. lia.
Qed.

(** ** range *)
Lemma stat_range_correct {V} (lt : V -> V -> bool) (a : list V) n : strict_weak_order lt -> 0 < n <= length a ->
  exists mi ma, stat_range lt a n = Some (mi, ma) /\ In mi (firstn n a) /\ In ma (firstn n a) /\
    Forall (fun x => lt x mi = false /\ lt ma x = false) (firstn n a).
Proof.
  intros [ho1 ho2] hn. unfold stat_range. destruct (nth_error_some a 0) as [f hf]; [lia|]. unfold aget at 1. rewrite hf. cbn [bind].
  assert (irr : forall x, lt x x = false) by (intros x; destruct (lt x x) eqn:e; auto; rewrite (ho1 _ _ e) in e; discriminate).
  match goal with |- context [for_ 0 n ?body _] => destruct (for_inv (fun i '(mi, ma) =>
    (exists j, j < n /\ nth_error a j = Some mi) /\ (exists j, j < n /\ nth_error a j = Some ma) /\ lt ma mi = false /\
    (forall j x, j < i -> nth_error a j = Some x -> lt x mi = false /\ lt ma x = false)) body 0 n (f, f)) as [[mi ma] [e hp]] end.
  - lia.
  - splits; [exists 0; split; [lia|auto]|exists 0; split; [lia|auto]|auto|]. intros; lia.
  - intros i [mi ma] hi (h1 & h2 & h3 & h4). destruct (nth_error_some a i) as [b hb]; [lia|]. unfold aget. rewrite hb. cbn [bind].
    eexists. split; [reflexivity|]. destruct (lt ma b) eqn:e1; [|destruct (lt b mi) eqn:e2].
    + splits; auto; [exists i; split; [lia|auto]|eapply ho2; eauto|]. intros j x hj hx. destruct (Nat.eq_dec j i) as [->|].
      * assert (x = b) by congruence. subst x. split; auto. eapply ho2; eauto.
      * destruct (h4 j x) as [k1 k2]; [lia|auto|]. split; auto. eapply ho2; eauto.
    + splits; auto; [exists i; split; [lia|auto]|]. intros j x hj hx. destruct (Nat.eq_dec j i) as [->|].
      * assert (x = b) by congruence. subst x. split; auto.
      * destruct (h4 j x) as [k1 k2]; [lia|auto|]. split; auto. apply (ho2 b mi x); auto.
    + splits; auto. intros j x hj hx. destruct (Nat.eq_dec j i) as [->|].
      * assert (x = b) by congruence. subst x. auto.
      * apply (h4 j x); [lia|auto].
  - exists mi, ma. destruct hp as ((j1 & k1 & k2) & (j2 & k3 & k4) & h3 & h4). splits; auto.
    + apply nth_error_In with j1. rewrite nth_error_firstn by lia. auto.
    + apply nth_error_In with j2. rewrite nth_error_firstn by lia. auto.
    + apply Forall_forall. intros x hx. apply In_nth_error in hx. destruct hx as [j hj]. pose proof (nth_error_lt _ _ _ hj) as hl.
      rewrite firstn_length in hl. rewrite nth_error_firstn in hj by lia. apply (h4 j x); [lia|auto].
Qed.
Lemma times_range_correct a n : Forall word a -> 0 < n <= length a ->
  exists mi ma, times_range a n = Some (inject_Z mi, inject_Z ma, inject_Z (ma - mi)) /\
    minimum_of Z.le mi (firstn n a) /\ maximum_of Z.le ma (firstn n a).
Proof.
  intros hw hn. destruct (stat_range_correct Z.ltb a n ltb_order hn) as (mi & ma & e & h1 & h2 & h3).
  exists mi, ma. unfold times_range. rewrite e. cbn [bind].
  assert (hmi : word mi) by (eapply Forall_forall; [apply firstn_Forall; exact hw|exact h1]).
  assert (hma : word ma) by (eapply Forall_forall; [apply firstn_Forall; exact hw|exact h2]).
  rewrite Forall_forall in h3. pose proof (h3 _ h1) as [_ k]. apply Z.ltb_ge in k.
  unfold word in *. rewrite u32_small by lia.
  splits; auto; (split; [assumption|]); apply Forall_forall; intros x hx; destruct (h3 _ hx) as [k1 k2]; apply Z.ltb_ge in k1; apply Z.ltb_ge in k2; assumption.
Qed.
Lemma samples_range_correct a n : 0 < n <= length a ->
  exists mi ma, samples_range a n = Some (mi, ma, (ma - mi)%Q) /\ minimum_of Qle mi (firstn n a) /\ maximum_of Qle ma (firstn n a).
Proof.
  intros hn. destruct (stat_range_correct Qlt_bool a n qlt_order hn) as (mi & ma & e & h1 & h2 & h3).
  exists mi, ma. unfold samples_range. rewrite e. cbn [bind]. rewrite Forall_forall in h3.
  splits; auto; (split; [assumption|]); apply Forall_forall; intros x hx; destruct (h3 _ hx) as [k1 k2]; apply Qlt_bool_false in k1; apply Qlt_bool_false in k2; assumption.
Qed.

(** ** mean and center *)
Lemma times_mean_correct a n : 0 < n <= length a -> exists m, times_mean a n = Some m /\ m = (inject_Z (u32 (zsum (firstn n a))) / inject_Z (Z.of_nat n))%Q.
Proof. intros h. unfold times_mean. rewrite sum_times_correct by lia. cbn [bind]. eauto. Qed.
Lemma samples_mean_correct a n : 0 < n <= length a -> exists m, samples_mean a n = Some m /\ (m == qsum (firstn n a) / inject_Z (Z.of_nat n))%Q.
Proof.
  intros h. unfold samples_mean. destruct (f64_sum_correct a n) as (s & -> & e); [lia|]. cbn [bind]. eexists. split; [reflexivity|]. rewrite e. reflexivity.
Qed.
Lemma firstn_S_app {A} (l : list A) n x : nth_error l n = Some x -> firstn (S n) l = firstn n l ++ [x].
Proof.
  revert n. induction l as [|h t IH]; intros [|n] e; cbn in *; try discriminate.
  - congruence.
  - f_equal. apply IH. exact e.
Qed.
Lemma zweighted_snoc l x i : zweighted i (l ++ [x]) = (zweighted i l + (i + Z.of_nat (length l)) * x)%Z.
Proof. revert i. induction l as [|h t IH]; intros i; cbn [app zweighted length]; [|rewrite IH]; lia. Qed.
Lemma qweighted_snoc l x i : (qweighted i (l ++ [x]) == qweighted i l + inject_Z (i + Z.of_nat (length l)) * x)%Q.
Proof.
  revert i. induction l as [|h t IH]; intros i; cbn [app qweighted length].
  - rewrite Z.add_0_r. ring.
  - rewrite IH. replace (i + 1 + Z.of_nat (length t))%Z with (i + Z.of_nat (S (length t)))%Z by lia. ring.
Qed.
Lemma zsum_snoc l x : zsum (l ++ [x]) = (zsum l + x)%Z.
Proof. induction l as [|h t IH]; [cbn; lia|]. cbn [app zsum fold_right]. fold (zsum (t ++ [x])) (zsum t). lia. Qed.
Lemma times_center_correct a n x0 : 0 < n <= length a -> nth_error a 0 = Some x0 ->
  times_center a n = Some (inject_Z (u32 (zweighted 0 (firstn n a))) / inject_Z (u32 (x0 + zsum (firstn n a))))%Q \/ (x0 <> u32 x0).
Proof.
  intros h hx. destruct (Z.eq_dec x0 (u32 x0)) as [hw|]; auto. left. unfold times_center. unfold aget at 1. rewrite hx. cbn [bind].
  match goal with |- context [for_ 0 n ?body _] => destruct (for_inv (fun i '(s, t) =>
    s = u32 (x0 + zsum (firstn i a)) /\ t = u32 (zweighted 0 (firstn i a))) body 0 n (x0, 0%Z)) as [[s t] [e [hs ht]]] end.
  - lia.
  - cbn [firstn zsum zweighted fold_right]. rewrite Z.add_0_r. split; auto.
  - intros i [s t] hi [hs ht]. destruct (nth_error_some a i) as [x hx']; [lia|]. unfold aget. rewrite hx'. cbn [bind].
    eexists. split; [reflexivity|]. rewrite (firstn_S_app _ _ _ hx'), zsum_snoc, zweighted_snoc, firstn_length, Nat.min_l by lia. subst s t. unfold u32.
    split.
    + rewrite Zplus_mod_idemp_l. f_equal. lia.
    + rewrite Zplus_mod_idemp_l, Zplus_mod_idemp_r. f_equal.
  - rewrite e. cbn [bind]. subst. reflexivity.
Qed.
Lemma samples_center_correct a n : 0 < n <= length a ->
  exists c, samples_center a n = Some c /\ (c == qweighted 0 (firstn n a) / qsum (firstn n a))%Q.
Proof.
  intros h. unfold samples_center. destruct (f64_sum_correct a n) as (s & -> & es); [lia|]. cbn [bind].
  match goal with |- context [for_ 0 n ?body _] => destruct (for_inv (fun i t => (t == qweighted 0 (firstn i a))%Q) body 0 n 0%Q) as [t [e ht]] end.
  - lia.
  - reflexivity.
  - intros i t hi ht. destruct (nth_error_some a i) as [x hx']; [lia|]. unfold aget. rewrite hx'. cbn [bind].
    eexists. split; [reflexivity|]. rewrite (firstn_S_app _ _ _ hx'), qweighted_snoc, firstn_length, Nat.min_l, Z.add_0_l, ht by lia. reflexivity.
  - rewrite e. cbn [bind]. eexists. split; [reflexivity|]. rewrite es, ht. reflexivity.
Qed.

(** ** moments *)
Lemma moment_snoc k m l x : (fold_right (fun x s => Qpower (x - m) (Z.of_nat k) + s) 0 (l ++ [x]) ==
  fold_right (fun x s => Qpower (x - m) (Z.of_nat k) + s) 0 l + Qpower (x - m) (Z.of_nat k))%Q.
Proof. induction l as [|h t IH]; cbn [app fold_right]; [ring|]. rewrite IH. ring. Qed.
Lemma pow2 q : (Qpower q 2 == q * q)%Q. Proof. reflexivity. Qed.
Lemma pow3 q : (Qpower q 3 == q * q * q)%Q. Proof. cbn. ring. Qed.
Lemma pow4 q : (Qpower q 4 == q * q * q * q)%Q. Proof. cbn. ring. Qed.
Lemma deviation_correct m a n : 0 < n <= length a -> exists d, deviation_squared m a n = Some d /\ (d == moment 2 m (firstn n a))%Q.
Proof.
  intros h. unfold deviation_squared, moment.
  match goal with |- context [for_ 0 n ?body _] => destruct (for_inv (fun i t => (t == fold_right (fun x s => Qpower (x - m) (Z.of_nat 2) + s) 0 (firstn i a))%Q) body 0 n 0%Q) as [t [e ht]] end.
  - lia.
  - reflexivity.
  - intros i t hi ht. destruct (nth_error_some a i) as [x hx']; [lia|]. unfold aget. rewrite hx'. cbn [bind].
    eexists. split; [reflexivity|]. rewrite (firstn_S_app _ _ _ hx'), moment_snoc, ht. change (Z.of_nat 2) with 2%Z. rewrite pow2. reflexivity.
  - rewrite e. cbn [bind]. eexists. split; [reflexivity|]. rewrite firstn_length, Nat.min_l, ht by lia. reflexivity.
Qed.
Lemma skewness_correct m a n : 0 < n <= length a -> exists p q, skewness_parts m a n = Some (p, q) /\
  (p == moment 3 m (firstn n a))%Q /\ (q == Qpower (moment 2 m (firstn n a)) 3)%Q.
Proof.
  intros h. unfold skewness_parts, moment.
  match goal with |- context [for_ 0 n ?body _] => destruct (for_inv (fun i '(s, t) =>
    (s == fold_right (fun x s => Qpower (x - m) (Z.of_nat 2) + s) 0 (firstn i a))%Q /\
    (t == fold_right (fun x s => Qpower (x - m) (Z.of_nat 3) + s) 0 (firstn i a))%Q) body 0 n (0%Q, 0%Q)) as [[s t] [e [hs ht]]] end.
  - lia.
  - split; reflexivity.
  - intros i [s t] hi [hs ht]. destruct (nth_error_some a i) as [x hx']; [lia|]. unfold aget. rewrite hx'. cbn [bind].
    eexists. split; [reflexivity|]. rewrite (firstn_S_app _ _ _ hx'), !moment_snoc. rewrite hs, ht. 
    change (Z.of_nat 2) with 2%Z. change (Z.of_nat 3) with 3%Z. rewrite pow2, pow3. split; reflexivity.
  - rewrite e. cbn [bind]. eexists _, _. split; [reflexivity|]. rewrite firstn_length, Nat.min_l by lia. rewrite pow3, hs, ht. split; reflexivity.
Qed.
Lemma kurtosis_correct m a n : 0 < n <= length a -> exists k, kurtosis m a n = Some k /\
  (k == moment 4 m (firstn n a) / Qpower (moment 2 m (firstn n a)) 2)%Q.
Proof.
  intros h. unfold kurtosis, moment.
  match goal with |- context [for_ 0 n ?body _] => destruct (for_inv (fun i '(s, t) =>
    (s == fold_right (fun x s => Qpower (x - m) (Z.of_nat 2) + s) 0 (firstn i a))%Q /\
    (t == fold_right (fun x s => Qpower (x - m) (Z.of_nat 4) + s) 0 (firstn i a))%Q) body 0 n (0%Q, 0%Q)) as [[s t] [e [hs ht]]] end.
  - lia.
  - split; reflexivity.
  - intros i [s t] hi [hs ht]. destruct (nth_error_some a i) as [x hx']; [lia|]. unfold aget. rewrite hx'. cbn [bind].
    eexists. split; [reflexivity|]. rewrite (firstn_S_app _ _ _ hx'), !moment_snoc. rewrite hs, ht. 
    change (Z.of_nat 2) with 2%Z. change (Z.of_nat 4) with 4%Z. rewrite pow2, pow4. split; reflexivity.
  - rewrite e. cbn [bind]. eexists. split; [reflexivity|]. rewrite firstn_length, Nat.min_l by lia. rewrite pow2, hs, ht. reflexivity.
Qed.

(** ** counts *)
Lemma unique_all_loop_correct k : forall fuel size width result, (0 <= size < two32 - 1)%Z -> (1 <= width)%Z -> (width + Z.of_nat k = size + 1)%Z -> k < fuel ->
  exists r, unique_all_loop fuel size width result = Some r /\ ((2 * r) mod (2 * two32) = (2 * result + Z.of_nat k * (Z.of_nat k + 1)) mod (2 * two32))%Z /\ (result = u32 result -> r = u32 r).
Proof.
  unfold two32. induction k; intros fuel size width result hs hw he hf; (destruct fuel as [|fuel]; [lia|]); cbn [unique_all_loop].
  - destruct (Z.leb_spec width size); [lia|]. exists result. splits; auto. f_equal. lia.
  - destruct (Z.leb_spec width size); [|lia]. rewrite (u32_small (width - 1)), (u32_small (size - (width - 1))), (u32_small (width + 1)) by (unfold two32; lia).
    destruct (IHk fuel size (width + 1)%Z (u32 (result + (size - (width - 1))))) as (r & e & hr & hr2); [lia|lia|lia|lia|].
    exists r. splits; auto.
    + rewrite hr. rewrite Z.add_mod by lia. unfold u32 at 1. replace (2 * 4294967296)%Z with (2 * two32)%Z by reflexivity.
      unfold two32. rewrite <- (Z.mul_mod_distr_l (result + (size - (width - 1))) 4294967296 2) by lia.
      rewrite Zmod_mod. rewrite <- Z.add_mod by lia. f_equal. replace (size - (width - 1))%Z with (Z.of_nat (S k)) by lia. lia.
    + intros _. apply hr2. unfold u32. rewrite Zmod_mod. reflexivity.
Qed.
Lemma unique_all_max_correct fuel size : (0 <= size < two32 - 1)%Z -> Z.to_nat size < fuel -> unique_all_max fuel size = Some (u32 (size * (size + 1) / 2)).
Proof.
  intros hs hf. unfold unique_all_max. destruct (unique_all_loop_correct (Z.to_nat size) fuel size 1 0) as (r & e & h1 & h2); auto; [lia|lia|].
  rewrite e. f_equal. specialize (h2 eq_refl). rewrite Z2Nat.id in h1 by lia. rewrite Z.mul_0_r, Z.add_0_l in h1.
  assert (he : (size * (size + 1) = 2 * (size * (size + 1) / 2))%Z).
  { apply Z_div_exact_full_2; [lia|]. rewrite Zmod_even. rewrite Z.even_mul, Z.even_add. destruct (Z.even size); reflexivity. }
  rewrite he in h1. rewrite !Z.mul_mod_distr_l in h1 by (unfold two32; lia). rewrite h2. unfold u32, two32 in *. lia.
Qed.
Lemma unique_all_never fuel : forall width result, (0 <= width < two32)%Z -> unique_all_loop fuel (two32 - 1) width result = None.
Proof.
  induction fuel; intros width result h; [reflexivity|]. cbn [unique_all_loop]. destruct (Z.leb_spec width (two32 - 1)); [|lia]. apply IHfuel. apply u32_range.
Qed.
Lemma windows_count size width : windows size width = size + 1 - width.
Proof.
  unfold windows. assert (G : forall k, length (filter (fun start => start + width <=? size) (seq 0 k)) = Nat.min k (size + 1 - width)).
  { induction k; [reflexivity|]. rewrite seq_S, filter_app, app_length, IHk. cbn [Nat.add filter]. destruct (Nat.leb_spec (k + width) size); cbn [length]; lia. }
  rewrite G. lia.
Qed.
Lemma unique_max_correct size width : 1 <= width <= size -> (Z.of_nat size < two32)%Z -> unique_max (Z.of_nat size) (Z.of_nat width) = Z.of_nat (windows size width).
Proof. intros h hs. rewrite windows_count. unfold unique_max. rewrite (u32_small (Z.of_nat width - 1)), u32_small by lia. lia. Qed.
