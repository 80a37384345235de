(** Properties C41 to C44, C78 and C79: sorting and statistics. *)
From Verif Require Import Base MiscModel MiscSpec ArrModel ArrSpec ScaleModel ScaleSpec SortModel SortSpec StatProofs Stat2Proofs SortProofs Sort2Proofs UniProofs.
From Coq Require Import QArith Qround Qabs Lqa Sorting.Permutation Sorting.Sorted.
Open Scope nat_scope.

(** ** C41 quicksort. The memory is [before ++ array ++ after] *)

(** The claim that only indices of the range are accessed is false: for each two elements in ascending order and nothing around
    them, the element before the array is read. *)
Theorem c41_reads_outside_refuted : forall (A : Type) (less : A -> A -> bool) x y, strict_weak_order less -> less x y = true ->
  quicksort A less [x; y] 0 1 = None.
Proof.
  intros A less x y h hl. apply quicksort_reads_before; auto; [|apply (proj1 h); exact hl].
  destruct (less x x) eqn:e; auto. rewrite <- e at 1. apply (proj1 h). exact e.
Qed.
Print Assumptions c41_reads_outside_refuted.
Example c41_reads_outside_case : quicksort Z Z.ltb [1; 2]%Z 0 1 = None.
Proof. vm_compute. reflexivity. Qed.

(** Missing: without the elements around the array the reads outside have no defined result. With elements before and after it that stop the
    scans, quicksort ends and sorts. *)
Theorem c41_sorts_partial : forall (A : Type) (less : A -> A -> bool), strict_weak_order less -> forall before array after lo hi,
  In lo before -> In hi after -> Forall (fun x => less x lo = false /\ less hi x = false) array ->
  exists sorted,
    quicksort A less (before ++ array ++ after) (Z.of_nat (length before)) (Z.of_nat (length before) + Z.of_nat (length array) - 1) =
      Some (before ++ sorted ++ after) /\ sorting_of less array sorted.
Proof. exact quicksort_sorts. Qed.
Print Assumptions c41_sorts_partial.
Example c41_sorts_case : In 0%Z [7; 0]%Z /\ In 9%Z [3; 9]%Z /\ Forall (fun x => (x <? 0)%Z = false /\ (9 <? x)%Z = false) [4; 2; 8; 2; 5]%Z /\
  quicksort Z Z.ltb ([7; 0] ++ [4; 2; 8; 2; 5] ++ [3; 9])%Z 2 6 = Some ([7; 0] ++ [2; 2; 4; 5; 8] ++ [3; 9])%Z.
Proof. splits; [cbn; auto|cbn; auto|repeat constructor|vm_compute; reflexivity]. Qed.

(** whatever is around the array, quicksort never returns with anything but the sorted array and never writes elsewhere *)
Theorem c41_returns_sorted_partial : forall (A : Type) (less : A -> A -> bool), strict_weak_order less -> forall before array after memory,
  quicksort A less (before ++ array ++ after) (Z.of_nat (length before)) (Z.of_nat (length before) + Z.of_nat (length array) - 1) = Some memory ->
  exists sorted, memory = before ++ sorted ++ after /\ sorting_of less array sorted.
Proof. exact quicksort_returns_sorted. Qed.
Print Assumptions c41_returns_sorted_partial.
Example c41_returns_sorted_case : quicksort Z Z.ltb ([5] ++ [3; 3; 6; 1; 2] ++ [0; 8])%Z 1 5 = None /\
  quicksort Z Z.ltb ([1] ++ [3; 3; 6; 1; 2] ++ [0; 8])%Z 1 5 = Some ([1] ++ [1; 2; 3; 3; 6] ++ [0; 8])%Z.
Proof. split; vm_compute; reflexivity. Qed.
(** the orders that are used *)
Theorem c41_orders : strict_weak_order Z.ltb /\ strict_weak_order Qlt_bool.
Proof. exact (conj ltb_order qlt_order). Qed.
Print Assumptions c41_orders.

(** ** C42 median *)

(** false for odd sizes: the element before the middle is returned *)
Theorem c42_odd_refuted : forall before after a r, Nat.odd (length a) = true -> 2 < length a -> (Z.of_nat (length a) < two32)%Z ->
  times_median before after a = Some r ->
  exists s middle previous, sorting_of Z.ltb a s /\ nth_error s (length a / 2) = Some middle /\ nth_error s (length a / 2 - 1) = Some previous /\ r = inject_Z previous.
Proof. intros before after a r h1 h2 h3 h. exact (median_odd_wrong _ _ _ _ _ _ _ ltb_order h2 h3 h1 h). Qed.
Print Assumptions c42_odd_refuted.
Theorem c42_odd_samples_refuted : forall before after a r, Nat.odd (length a) = true -> 2 < length a -> (Z.of_nat (length a) < two32)%Z ->
  samples_median before after a = Some r ->
  exists s middle previous, sorting_of Qlt_bool a s /\ nth_error s (length a / 2) = Some middle /\ nth_error s (length a / 2 - 1) = Some previous /\ r = previous.
Proof. intros before after a r h1 h2 h3 h. exact (median_odd_wrong _ _ _ _ _ _ _ qlt_order h2 h3 h1 h). Qed.
Print Assumptions c42_odd_samples_refuted.
Example c42_odd_wrong : exists before after a s x, sorting_of Z.ltb a s /\ nth_error s (length a / 2) = Some x /\ length a = 3 /\
  exists r, times_median before after a = Some r /\ ~ (r == inject_Z x)%Q.
Proof.
  exists [0; 0]%Z, [9; 9]%Z, [5; 1; 3]%Z, [1; 3; 5]%Z, 3%Z. splits.
  - split; [|repeat constructor]. apply Permutation_trans with [1; 5; 3]%Z; [apply perm_swap|]. constructor. apply perm_swap.
  - reflexivity.
  - reflexivity.
  - exists 1%Q. split; [vm_compute; reflexivity|]. intros h. apply Qeq_bool_iff in h. vm_compute in h. discriminate.
Qed.
(** and for one element memory outside of the array is read, unless there are 2^32 - 1 elements around it *)
Theorem c42_single_refuted : forall before after (x : Q), (Z.of_nat (length before + length after) < two32 - 1)%Z ->
  samples_median before after [x] = None.
Proof. intros. apply median_single. assumption. Qed.
Print Assumptions c42_single_refuted.
(** for times the sum of the two middle elements can wrap *)
Theorem c42_wrap_refuted : forall before after a r, Nat.odd (length a) = false -> 0 < length a -> (Z.of_nat (length a) < two32)%Z ->
  Forall (fun x => two32 / 2 <= x < two32)%Z a -> times_median before after a = Some r ->
  exists s x y, sorting_of Z.ltb a s /\ nth_error s (length a / 2) = Some x /\ nth_error s (length a / 2 - 1) = Some y /\ (r < inject_Z (x + y) / 2)%Q.
Proof.
  intros before after a r ho h0 hw hf h. destruct (median_even _ _ _ _ _ _ _ ltb_order h0 hw ho h) as (s & x & y & h1 & h2 & h3 & ->). exists s, x, y. splits; auto.
  assert (k : forall z, In z s -> (two32 / 2 <= z < two32)%Z).
  { intros z hz. rewrite Forall_forall in hf. apply hf. apply (Permutation_in _ (Permutation_sym (proj1 h1))). exact hz. }
  pose proof (k x (nth_error_In _ _ h2)) as kx. pose proof (k y (nth_error_In _ _ h3)) as ky.
  assert (hu : (u32 (x + y) < x + y)%Z) by (unfold u32; pose proof (Z.mod_pos_bound (x + y) two32); unfold two32 in *; change (4294967296 / 2)%Z with 2147483648%Z in *; lia).
  rewrite Zlt_Qlt in hu. set (p := inject_Z (u32 (x + y))) in *. set (q := inject_Z (x + y)) in *. clearbody p q.
  assert (e : forall z : Q, (z / 2 == z * (1 # 2))%Q) by (intro z; reflexivity). rewrite !e. lra.
Qed.
Print Assumptions c42_wrap_refuted.
Example c42_wrap_case : times_median [0; 0]%Z [4294967295; 4294967295]%Z [2147483648; 2147483648]%Z = Some (0 # 2)%Q.
Proof. vm_compute. reflexivity. Qed.

(** Missing: odd sizes, and the memory around the array has to stop the scans of quicksort *)
Theorem c42_samples_partial : forall before after a, Nat.odd (length a) = false -> 0 < length a -> (Z.of_nat (length a) < two32)%Z ->
  (forall r, samples_median before after a = Some r ->
    exists s x y, sorting_of Qlt_bool a s /\ nth_error s (length a / 2) = Some x /\ nth_error s (length a / 2 - 1) = Some y /\ r = ((x + y) / 2)%Q) /\
  (forall lo hi, In lo before -> In hi after -> Forall (fun x => lo <= x <= hi)%Q a -> exists r, samples_median before after a = Some r).
Proof.
  intros before after a ho h0 hw. split.
  - intros r h. exact (median_even _ _ _ _ _ _ _ qlt_order h0 hw ho h).
  - intros lo hi hlo hhi ha. apply (median_returns _ _ _ _ _ _ lo hi qlt_order); auto.
    + destruct a as [|x [|y a]]; cbn in *; [lia|discriminate|lia].
    + eapply Forall_impl; [|exact ha]. intros x [k1 k2]. split; apply MiscProofs.Qlt_bool_false; auto.
Qed.
Print Assumptions c42_samples_partial.
Example c42_samples_case : samples_median [0; 0]%Q [9; 9]%Q [5; 1; 3; 2]%Q = Some ((3 + 2) / 2)%Q.
Proof. vm_compute. reflexivity. Qed.
Theorem c42_times_partial : forall before after a, Nat.odd (length a) = false -> 0 < length a -> (Z.of_nat (length a) < two32)%Z ->
  Forall (fun x => 0 <= x < two32 / 2)%Z a ->
  (forall r, times_median before after a = Some r ->
    exists s x y, sorting_of Z.ltb a s /\ nth_error s (length a / 2) = Some x /\ nth_error s (length a / 2 - 1) = Some y /\ r = (inject_Z (x + y) / 2)%Q) /\
  (forall lo hi, In lo before -> In hi after -> Forall (fun x => lo <= x <= hi)%Z a -> exists r, times_median before after a = Some r).
Proof.
  intros before after a ho h0 hw hx. split.
  - intros r h. destruct (median_even _ _ _ _ _ _ _ ltb_order h0 hw ho h) as (s & x & y & h1 & h2 & h3 & h4). exists s, x, y. splits; auto.
    assert (hs : Forall (fun x => 0 <= x < two32 / 2)%Z s) by (eapply Permutation_Forall; [exact (proj1 h1)|exact hx]). rewrite Forall_forall in hs.
    pose proof (hs x (nth_error_In _ _ h2)) as k1. pose proof (hs y (nth_error_In _ _ h3)) as k2. rewrite h4.
    change (two32 / 2)%Z with 2147483648%Z in *. rewrite u32_small by (unfold two32; lia). reflexivity.
  - intros lo hi hlo hhi ha. apply (median_returns _ _ _ _ _ _ lo hi ltb_order); auto.
    + destruct a as [|x [|y a]]; cbn in *; [lia|discriminate|lia].
    + eapply Forall_impl; [|exact ha]. intros x [k1 k2]. split; apply Z.ltb_ge; auto.
Qed.
Print Assumptions c42_times_partial.
Example c42_times_case : times_median [0; 0]%Z [9; 9]%Z [5; 1; 4; 2]%Z = Some (inject_Z (4 + 2) / 2)%Q.
Proof. vm_compute. reflexivity. Qed.
(** what is returned for odd sizes from 3: the element before the middle *)
Theorem c42_odd_partial : forall before after a r, Nat.odd (length a) = true -> 2 < length a -> (Z.of_nat (length a) < two32)%Z ->
  samples_median before after a = Some r -> exists s, sorting_of Qlt_bool a s /\ nth_error s (length a / 2 - 1) = Some r.
Proof.
  intros before after a r ho h0 hw h. destruct (median_odd _ _ _ _ _ _ _ qlt_order h0 hw ho h) as (s & x & h1 & h2 & h3). subst. eauto.
Qed.
Print Assumptions c42_odd_partial.
Example c42_odd_case : samples_median [0; 0]%Q [9; 9]%Q [5; 1; 3]%Q = Some 1%Q.
Proof. vm_compute. reflexivity. Qed.

(** ** C43 range, mean, center *)
Theorem c43_times_range : forall a size, Forall (fun x => 0 <= x < two32)%Z a -> 0 < size <= length a -> exists min max,
  times_range a size = Some (inject_Z min, inject_Z max, inject_Z (max - min)) /\
  minimum_of Z.le min (firstn size a) /\ maximum_of Z.le max (firstn size a).
Proof. exact times_range_correct. Qed.
Print Assumptions c43_times_range.
Theorem c43_samples_range : forall a size, 0 < size <= length a -> exists min max,
  samples_range a size = Some (min, max, (max - min)%Q) /\ minimum_of Qle min (firstn size a) /\ maximum_of Qle max (firstn size a).
Proof. exact samples_range_correct. Qed.
Print Assumptions c43_samples_range.
Theorem c43_samples_mean : forall a size, 0 < size <= length a -> exists m,
  samples_mean a size = Some m /\ (m == qsum (firstn size a) / inject_Z (Z.of_nat size))%Q.
Proof. exact samples_mean_correct. Qed.
Print Assumptions c43_samples_mean.
Theorem c43_samples_center : forall a size, 0 < size <= length a -> ~ (qsum (firstn size a) == 0)%Q -> exists c,
  samples_center a size = Some c /\ (c == qweighted 0 (firstn size a) / qsum (firstn size a))%Q.
Proof. intros a size h _. exact (samples_center_correct a size h). Qed.
Print Assumptions c43_samples_center.
Example c43_case : times_range [5; 2; 7; 2]%Z 4 = Some (2%Q, 7%Q, 5%Q) /\ samples_range [0; -3; 5]%Q 3 = Some (-3, 5, 5 - -3)%Q /\
  (exists m, samples_mean [1; 2; 6]%Q 3 = Some m /\ m == 3)%Q /\ (exists c, samples_center [1; 2; 1]%Q 3 = Some c /\ c == 1)%Q.
Proof. splits; [vm_compute; reflexivity|vm_compute; reflexivity|eexists; split; [vm_compute; reflexivity|reflexivity]|eexists; split; [vm_compute; reflexivity|reflexivity]]. Qed.
(** The sum of times wraps at 2^32, and the first element is counted twice for the center of times *)
Theorem c43_times_mean_refuted : forall a size, 0 < size <= length a -> (two32 <= zsum (firstn size a))%Z ->
  exists m, times_mean a size = Some m /\ (m < inject_Z (zsum (firstn size a)) / inject_Z (Z.of_nat size))%Q.
Proof. exact times_mean_wrong. Qed.
Print Assumptions c43_times_mean_refuted.
Example c43_times_mean_wrapped : zsum [2147483648; 2147483648]%Z = two32 /\ times_mean [2147483648; 2147483648]%Z 2 = Some (0 # 2)%Q.
Proof. split; vm_compute; reflexivity. Qed.
(** the first element is counted twice in the divisor *)
Theorem c43_times_center_refuted : forall first rest, (0 < first < two32)%Z -> let a := first :: rest in
  (0 <= first + zsum a < two32)%Z -> (0 < zsum a)%Z -> (0 < zweighted 0 a < two32)%Z ->
  exists c, times_center a (length a) = Some c /\ (c < inject_Z (zweighted 0 a) / inject_Z (zsum a))%Q.
Proof. exact times_center_wrong. Qed.
Print Assumptions c43_times_center_refuted.
Example c43_times_center_twice : times_center [1; 1]%Z 2 = Some (1 # 3)%Q /\ (zweighted 0 [1; 1] = 1 /\ zsum [1; 1] = 2)%Z.
Proof. split; [|split]; vm_compute; reflexivity. Qed.
(** Missing: sums from 2^32 *)
Theorem c43_times_mean_partial : forall a size, 0 < size <= length a -> (0 <= zsum (firstn size a) < two32)%Z ->
  times_mean a size = Some (inject_Z (zsum (firstn size a)) / inject_Z (Z.of_nat size))%Q.
Proof. intros a size h hs. destruct (times_mean_correct a size h) as (m & e & ->). rewrite e. rewrite u32_small by exact hs. reflexivity. Qed.
Print Assumptions c43_times_mean_partial.
(** Missing: sums from 2^32, and arrays whose first element is not 0: the exact result has the first element twice *)
Theorem c43_times_center_partial : forall first rest, (0 <= first < two32)%Z -> let a := first :: rest in
  (0 <= first + zsum a < two32)%Z -> (0 <= zweighted 0 a < two32)%Z ->
  times_center a (length a) = Some (inject_Z (zweighted 0 a) / inject_Z (first + zsum a))%Q.
Proof.
  intros first rest hf a h1 h2. destruct (times_center_correct a (length a) first) as [e|e]; [cbn [a length]; lia|reflexivity| |].
  - rewrite e, firstn_all. rewrite !u32_small by assumption. reflexivity.
  - exfalso. apply e. symmetry. apply u32_small. exact hf.
Qed.
Print Assumptions c43_times_center_partial.
Example c43_times_case : times_mean [1; 2; 6]%Z 3 = Some (9 # 3)%Q /\ times_center [0; 2; 2]%Z 3 = Some (6 # 4)%Q.
Proof. split; vm_compute; reflexivity. Qed.

(** ** C44 subsequence counts *)
(** [fuel] is the number of passes: the loop ends after [size] of them *)
Theorem c44_unique_all_max : forall fuel size, (0 <= size < two32 - 1)%Z -> Z.to_nat size < fuel ->
  unique_all_max fuel size = Some (u32 (size * (size + 1) / 2)).
Proof. exact unique_all_max_correct. Qed.
Print Assumptions c44_unique_all_max.
Theorem c44_endless : forall fuel, unique_all_max fuel (two32 - 1) = None.
Proof. intros. apply unique_all_never. unfold two32. lia. Qed.
Print Assumptions c44_endless.
Theorem c44_unique_max : forall size width, 1 <= width <= size -> (Z.of_nat size < two32)%Z ->
  unique_max (Z.of_nat size) (Z.of_nat width) = Z.of_nat (windows size width) /\
  repetition_max (Z.of_nat size) (Z.of_nat width) = (Z.of_nat (windows size width) - 1)%Z.
Proof.
  intros size width h hs. pose proof (unique_max_correct size width h hs) as e. split; [exact e|]. unfold repetition_max. rewrite e.
  rewrite windows_count. rewrite u32_small by lia. reflexivity.
Qed.
Print Assumptions c44_unique_max.
Theorem c44_repetition_all_max : forall fuel size, (0 <= size < two32 - 1)%Z -> Z.to_nat size < fuel ->
  repetition_all_max fuel size = Some (u32 (size * (size - 1) / 2)).
Proof.
  intros fuel size hs hf. unfold repetition_all_max. rewrite unique_all_max_correct by assumption. cbn [bind]. f_equal.
  unfold u32. rewrite Zminus_mod_idemp_l. f_equal. replace (size * (size + 1))%Z with (size * (size - 1) + size * 2)%Z by lia. rewrite Z.div_add by lia. lia.
Qed.
Print Assumptions c44_repetition_all_max.
Example c44_case : unique_all_max 5 4 = Some 10%Z /\ windows 5 2 = 4 /\ unique_max 5 2 = 4%Z /\ repetition_all_max 5 4 = Some 6%Z.
Proof. splits; vm_compute; reflexivity. Qed.

(** ** C78 deviation, skewness, kurtosis, inharmonicity *)
Theorem c78_deviation : forall mean a size, 0 < size <= length a -> exists d,
  deviation_squared mean a size = Some d /\ (d == moment 2 mean (firstn size a))%Q.
Proof. exact deviation_correct. Qed.
Print Assumptions c78_deviation.
Theorem c78_skewness : forall mean a size, 0 < size <= length a -> exists m3 m2_cubed,
  skewness_parts mean a size = Some (m3, m2_cubed) /\ (m3 == moment 3 mean (firstn size a))%Q /\
  (m2_cubed == Qpower (moment 2 mean (firstn size a)) 3)%Q.
Proof. exact skewness_correct. Qed.
Print Assumptions c78_skewness.
Theorem c78_kurtosis : forall mean a size, 0 < size <= length a -> ~ (moment 2 mean (firstn size a) == 0)%Q -> exists k,
  kurtosis mean a size = Some k /\ (k == moment 4 mean (firstn size a) / Qpower (moment 2 mean (firstn size a)) 2)%Q.
Proof. intros mean a size h _. exact (kurtosis_correct mean a size h). Qed.
Print Assumptions c78_kurtosis.
Example c78_moments_case : (exists d, deviation_squared 2 [1; 2; 3; 2]%Q 4 = Some d /\ d == 1 # 2)%Q /\
  (exists k, kurtosis 2 [1; 2; 3; 2]%Q 4 = Some k /\ k == 2)%Q.
Proof. split; eexists; (split; [vm_compute; reflexivity|reflexivity]). Qed.
(** the smallest mean distance of the other numbers to integer multiples of one of them *)
Theorem c78_inharmonicity : forall a size, 0 < size <= length a -> Forall (fun x => 0 < x)%Q (firstn size a) ->
  Forall (fun x => Forall (fun y => x / y < inject_Z two32)%Q (firstn size a)) (firstn size a) ->
  exists r, inharmonicity a size = Some r /\
    (exists y, In y (firstn size a) /\ mean_distance (firstn size a) y r) /\
    (forall y m, In y (firstn size a) -> mean_distance (firstn size a) y m -> (r <= m)%Q).
Proof. exact inharmonicity_correct. Qed.
Print Assumptions c78_inharmonicity.
(** at most one half, and zero exactly if all numbers are integer multiples of one of them *)
Theorem c78_inharmonicity_bounds : forall a size r, 0 < size <= length a -> Forall (fun x => 0 < x)%Q (firstn size a) ->
  Forall (fun x => Forall (fun y => x / y < inject_Z two32)%Q (firstn size a)) (firstn size a) ->
  inharmonicity a size = Some r ->
  (0 <= r <= 1 # 2)%Q /\
  ((r == 0)%Q <-> exists y, In y (firstn size a) /\ Forall (fun x => exists z, x / y == inject_Z z)%Q (firstn size a)).
Proof.
  intros a size r h1 h2 h3 e. destruct (inharmonicity_correct a size h1 h2 h3) as (r' & e' & (y & hy & hm) & hmin).
  assert (r' = r) by congruence. subst r'.
  assert (hne : firstn size a <> []) by (destruct a; [cbn in h1; lia|]; destruct size; [lia|discriminate]).
  split; [eapply mean_distance_half; eauto|]. split.
  - intros h. exists y. split; auto. apply (mean_distance_zero _ _ _ hne hm). exact h.
  - intros (y' & hy' & hz).
    assert (hm' : mean_distance (firstn size a) y' 0).
    { exists (map (fun _ => 0%Q) (firstn size a)). split.
      - revert hz. generalize (firstn size a). intros l. induction 1 as [|x l [z hz] _ IH]; cbn [map]; constructor; auto. split.
        + exists z. rewrite hz. rewrite Qabs_pos by lra. ring.
        + intros. apply Qabs_nonneg.
      - assert (k : forall l : list Q, (fold_right Qplus 0 (map (fun _ => 0) l) == 0)%Q) by (induction l; cbn [map fold_right]; [reflexivity|rewrite IHl; ring]).
        rewrite k. unfold Qdiv. ring. }
    pose proof (hmin y' 0%Q hy' hm'). pose proof (mean_distance_half _ _ _ hne hm). apply Qle_antisym; lra.
Qed.
Print Assumptions c78_inharmonicity_bounds.
Example c78_inharmonicity_case : (exists r, inharmonicity [6; 3; 9]%Q 3 = Some r /\ r == 0)%Q /\ (exists r, inharmonicity [2; 3]%Q 2 = Some r /\ r == 1 # 6)%Q.
Proof. split; eexists; (split; [vm_compute; reflexivity|reflexivity]). Qed.

(** ** C79 scaling samples to times *)
(** false if all samples are positive: the result is larger than the requested maximum *)
Theorem c79_positive_refuted : forall a size max out lowest highest, 0 < size <= length a -> size <= length out -> (0 < max < two32)%Z ->
  minimum_of Qle lowest (firstn size a) -> maximum_of Qle highest (firstn size a) -> (0 <= lowest < highest)%Q ->
  (highest * (inject_Z max / (highest - lowest)) + (1 # 2) < inject_Z two32)%Q -> (highest - lowest <= 2 * inject_Z max * lowest)%Q ->
  exists out' y, scale_to_times a size max out = Some out' /\ In y (firstn size out') /\ (max < y)%Z.
Proof. exact scale_to_times_exceeds. Qed.
Print Assumptions c79_positive_refuted.
Example c79_positive_case : scale_to_times [10; 11]%Q 2 5 [0; 0]%Z = Some [50; 55]%Z /\ (11 - 10 <= 2 * inject_Z 5 * 10)%Q /\
  (11 * (inject_Z 5 / (11 - 10)) + (1 # 2) < inject_Z two32)%Q.
Proof. splits; vm_compute; [reflexivity|discriminate|reflexivity]. Qed.
(** what is computed for arrays without negative samples *)
Theorem c79_positive_partial : forall a size max out lowest highest, 0 < size <= length a -> size <= length out -> (0 <= max < two32)%Z ->
  minimum_of Qle lowest (firstn size a) -> maximum_of Qle highest (firstn size a) -> (0 <= lowest < highest)%Q ->
  (highest * (inject_Z max / (highest - lowest)) + (1 # 2) < inject_Z two32)%Q ->
  exists out', scale_to_times a size max out = Some out' /\ length out' = length out /\
    (forall i, i < size -> exists x y, nth_error a i = Some x /\ nth_error out' i = Some y /\ rounded (x * (inject_Z max / (highest - lowest))) y) /\
    (forall i, size <= i -> nth_error out' i = nth_error out i).
Proof. exact scale_to_times_positive. Qed.
Print Assumptions c79_positive_partial.
(** Missing: arrays of positive samples only, and arrays of equal samples (the range is 0 and the divisor) *)
Theorem c79_scale_to_times_partial : forall a size max out lowest, 0 < size <= length a -> size <= length out -> (0 <= max < two32)%Z ->
  minimum_of Qle lowest (firstn size a) -> (lowest <= 0)%Q -> (exists x, In x (firstn size a) /\ lowest < x)%Q ->
  exists out' factor, scale_to_times a size max out = Some out' /\ length out' = length out /\ (0 <= factor)%Q /\
    (forall i, i < size -> exists x y, nth_error a i = Some x /\ nth_error out' i = Some y /\
      rounded ((x - lowest) * factor) y /\ (0 <= y <= max)%Z /\ (maximum_of Qle x (firstn size a) -> y = max)) /\
    (forall i, size <= i -> nth_error out' i = nth_error out i).
Proof. exact scale_to_times_correct. Qed.
Print Assumptions c79_scale_to_times_partial.
Example c79_scale_to_times_case : scale_to_times [-1; 0; 3]%Q 3 8 [9; 9; 9; 9]%Z = Some [0; 2; 8; 9]%Z.
Proof. vm_compute. reflexivity. Qed.
(** equal samples: the division by the range is one by zero *)
Theorem c79_equal_refuted : forall x n max out, 0 < n -> scale_to_times (repeat x n) n max out = None.
Proof.
  intros x n max out hn. unfold scale_to_times. destruct (samples_range_correct (repeat x n) n) as (mi & ma & e & [h1 _] & [h2 _]); [rewrite repeat_length; lia|].
  rewrite e. cbn [bind]. assert (hin : forall y, In y (firstn n (repeat x n)) -> y = x).
  { intros y hy. apply (repeat_spec n). rewrite <- (firstn_skipn n (repeat x n)). apply in_or_app. auto. }
  rewrite (hin _ h1), (hin _ h2). replace (Qeq_bool (x - x) 0) with true; [reflexivity|]. symmetry. apply Qeq_bool_iff. ring.
Qed.
Print Assumptions c79_equal_refuted.
