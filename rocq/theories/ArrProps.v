(** Array functions: theorems. [slice m p n = Some l]: the memory holds the array l at p. [replace m p xs]: the memory with
    the array at p replaced by xs and nothing else changed. *)
From Verif Require Import Base ArrModel ArrSpec ArrProofs ArrTimesProofs ArrTimes2Proofs UniProofs ArrPlaceProofs.

(** C21: the functions with one array change exactly the count elements, each by the scalar operation. *)
Theorem c21_scalar_operations :
  forall (V : Type) (add mul sub : V -> V -> V) (div : V -> V -> option V) (m : list V) (p n : nat) (l : list V) (v : V),
  slice m p n = Some l ->
  arr_add V add m p n v = Some (replace m p (map (fun x => add x v) l)) /\
  arr_multiply V mul m p n v = Some (replace m p (map (fun x => mul x v) l)) /\
  arr_subtract V sub m p n v = Some (replace m p (map (fun x => sub x v) l)) /\
  arr_square V mul m p n = Some (replace m p (map (fun x => mul x x) l)) /\
  arr_set V m p n v = Some (replace m p (map (fun _ => v) l)) /\
  (forall l', Forall2 (fun x y => div x v = Some y) l l' -> arr_divide V div m p n v = Some (replace m p l')).
Proof. exact scalar_ops. Qed.
Print Assumptions c21_scalar_operations.
Example c21_scalar_instance :
  slice [9;5;6;7;8]%Z 1 3 = Some [5;6;7]%Z /\
  arr_subtract Z t_sub [9;5;6;7;8]%Z 1 3 6%Z = Some [9;0;0;1;8]%Z /\ arr_divide Z t_div [9;5;6;7;8]%Z 1 3 2%Z = Some [9;2;3;3;8]%Z.
Proof. repeat split. Qed.

(** C21: and pairwise, also when the second array is the first, overlaps it from behind or is elsewhere. *)
Theorem c21_pairwise_operations :
  forall (V : Type) (add mul sub : V -> V -> V) (m : list V) (p n : nat) (l : list V) (q : nat) (k : list V),
  slice m p n = Some l -> slice m q n = Some k -> readable q p n ->
  arr_add_pair V add m p n q = Some (replace m p (map2 add l k)) /\
  arr_multiply_pair V mul m p n q = Some (replace m p (map2 mul l k)) /\
  arr_subtract_pair V sub m p n q = Some (replace m p (map2 sub l k)).
Proof. exact pair_ops. Qed.
Print Assumptions c21_pairwise_operations.
Theorem c21_pairwise_division :
  forall (V : Type) (div : V -> V -> option V) (m : list V) (p n : nat) (l : list V) (q : nat) (k : list V) (d : V -> V -> V),
  slice m p n = Some l -> slice m q n = Some k -> readable q p n ->
  Forall2 (fun x y => div x y = Some (d x y)) l k -> arr_divide_pair V div m p n q = Some (replace m p (map2 d l k)).
Proof. exact divide_pair. Qed.
Print Assumptions c21_pairwise_division.
Theorem c21_copy :
  forall (V : Type) (m : list V) (q n : nat) (k : list V) (p : nat),
  slice m q n = Some k -> p + n <= length m -> readable q p n -> arr_copy V m q n p = Some (replace m p k).
Proof. exact copy_correct. Qed.
Print Assumptions c21_copy.
Example c21_pairwise_instance :
  slice [1;2;3;10;20;30]%Z 0 3 = Some [1;2;3]%Z /\ slice [1;2;3;10;20;30]%Z 3 3 = Some [10;20;30]%Z /\ readable 3 0 3 /\
  arr_add_pair Z t_add [1;2;3;10;20;30]%Z 0 3 3 = Some [11;22;33;10;20;30]%Z /\
  arr_divide_pair Z t_div [10;20;30;1;2;3]%Z 0 3 3 = Some [10;10;10;1;2;3]%Z /\
  arr_copy Z [1;2;3;10;20;30]%Z 3 3 0 = Some [10;20;30;10;20;30]%Z.
Proof. repeat split. left. repeat constructor. Qed.

(** C21: subtraction of times stops at zero. *)
Theorem c21_times_subtract_saturates : forall x y : Z, word x -> word y -> t_sub x y = Z.max 0 (x - y).
Proof. exact t_sub_saturates. Qed.
Print Assumptions c21_times_subtract_saturates.
Example c21_saturate_instance : word 3 /\ word 5 /\ t_sub 3 5 = 0%Z /\ t_sub 5 3 = 2%Z.
Proof. unfold word, two32. repeat split; discriminate || reflexivity. Qed.

(** C22: the reversed array ends up one element behind out; the cell after the output array is overwritten. *)
Theorem c22_reverse_shifted_partial :
  forall (V : Type) (m : list V) (q n : nat) (k : list V) (p : nat),
  slice m q n = Some k -> p + n < length m -> disjoint q n (p + 1) n ->
  arr_reverse V m q n p = Some (replace m (p + 1) (rev k)).
Proof. exact reverse_shifted. Qed.
Print Assumptions c22_reverse_shifted_partial.
Theorem c22_reverse_refuted :
  exists (m k : list Z) (q n p : nat), slice m q n = Some k /\ disjoint q n p n /\ p + n <= length m /\
  (exists m', arr_reverse Z m q n p = Some m' /\ slice m' p n <> Some (rev k) /\ nth_error m' (p + n) <> nth_error m (p + n)).
Proof.
  exists [1;2;3;0;0;0;7]%Z, [1;2;3]%Z, 0, 3, 3. repeat split; [left; repeat constructor|repeat constructor|].
  exists [1;2;3;0;3;2;1]%Z. repeat split; discriminate.
Qed.
Print Assumptions c22_reverse_refuted.
(** and when the output array is the last object in memory, the access is out of bounds *)
Theorem c22_reverse_out_of_bounds_refuted :
  exists (m k : list Z) (q n p : nat), slice m q n = Some k /\ disjoint q n p n /\ p + n <= length m /\ arr_reverse Z m q n p = None.
Proof. exists [1;2;3;0;0;0]%Z, [1;2;3]%Z, 0, 3, 3. repeat split; [left; repeat constructor|repeat constructor]. Qed.
Print Assumptions c22_reverse_out_of_bounds_refuted.

(** C23: or and xor *)
Theorem c23_or_xor :
  forall (V : Type) (zero : V) (lt : V -> V -> bool) (m : list V) (a b n : nat) (la lb : list V) (out : nat) (limit : V),
  slice m a n = Some la -> slice m b n = Some lb -> out + n <= length m -> readable a out n -> readable b out n ->
  arr_or V lt m a b n limit out = Some (replace m out (map2 (or_spec lt limit) la lb)) /\
  arr_xor V zero lt m a b n limit out = Some (replace m out (map2 (xor_spec zero lt limit) la lb)).
Proof. intros V zero lt m a b n la lb out limit H1 H2 H3 H4 H5. destruct (logic_ops V zero lt m a b n la lb out limit H1 H2 H3 H4 H5) as [A [B _]]. exact (conj A B). Qed.
Print Assumptions c23_or_xor.
Example c23_or_xor_instance :
  arr_or Z Z.ltb [1;5;6;0;2;7;8;9;0;0;0;0]%Z 0 4 4 5%Z 8 = Some [1;5;6;0;2;7;8;9;1;5;6;9]%Z /\
  arr_xor Z 0%Z Z.ltb [1;5;6;0;2;7;1;9;0;0;0;0]%Z 0 4 4 5%Z 8 = Some [1;5;6;0;2;7;1;9;1;0;6;9]%Z.
Proof. split; reflexivity. Qed.
(** C23: and never looks at b: it gives b[i] wherever a[i] reaches the limit *)
Theorem c23_and_partial :
  forall (V : Type) (zero : V) (lt : V -> V -> bool) (m : list V) (a b n : nat) (la lb : list V) (out : nat) (limit : V),
  slice m a n = Some la -> slice m b n = Some lb -> out + n <= length m -> readable a out n -> readable b out n ->
  Forall2 (fun x y => lt x limit = false -> lt y limit = false) la lb ->
  arr_and V zero lt m a b n limit out = Some (replace m out (map2 (and_spec zero lt limit) la lb)).
Proof.
  intros V zero lt m a b n la lb out limit H1 H2 H3 H4 H5 HF. destruct (logic_ops V zero lt m a b n la lb out limit H1 H2 H3 H4 H5) as [_ [_ C]].
  rewrite C. f_equal. f_equal. unfold map2. clear -HF. induction HF as [|x y la lb H HF IH]; cbn; [reflexivity|]. rewrite IH. f_equal.
  unfold and_spec. destruct (lt x limit); cbn; [reflexivity|]. now rewrite H.
Qed.
Print Assumptions c23_and_partial.
Example c23_and_instance : arr_and Z 0%Z Z.ltb [1;5;6;0;2;7;8;9;0;0;0;0]%Z 0 4 4 5%Z 8 = Some [1;5;6;0;2;7;8;9;0;7;8;0]%Z.
Proof. reflexivity. Qed.
Theorem c23_and_refuted :
  forall (V : Type) (zero : V) (lt : V -> V -> bool) (m : list V) (a b n : nat) (la lb : list V) (out : nat) (limit : V) (i : nat) (x y : V),
  slice m a n = Some la -> slice m b n = Some lb -> out + n <= length m -> readable a out n -> readable b out n ->
  nth_error la i = Some x -> nth_error lb i = Some y -> lt x limit = false ->
  exists l, arr_and V zero lt m a b n limit out = Some (replace m out l) /\ length l = n /\ nth_error l i = Some y.
Proof. exact @and_takes_second. Qed.
Print Assumptions c23_and_refuted.
Example c23_and_refuted_case : arr_and Z 0%Z Z.ltb [5;3;0]%Z 0 1 1 4%Z 2 = Some [5;3;3]%Z /\ and_spec 0%Z Z.ltb 4%Z 5%Z 3%Z = 0%Z.
Proof. split; reflexivity. Qed.

(** C24: cusum and differences *)
Theorem c24_cusum_is_running_sums :
  forall (V : Type) (add : V -> V -> V) (m : list V) (q n : nat) (x0 : V) (rest : list V) (p : nat),
  slice m q n = Some (x0 :: rest) -> p + n <= length m -> readable q p n ->
  arr_cusum V add m q n p = Some (replace m p (sums add x0 rest)).
Proof. exact cusum_correct. Qed.
Print Assumptions c24_cusum_is_running_sums.
Theorem c24_differences :
  forall (V : Type) (sub : V -> V -> V) (m : list V) (q n : nat) (x0 : V) (rest : list V) (p : nat),
  slice m q n = Some (x0 :: rest) -> p + (n - 1) <= length m -> readable q p n ->
  arr_differences V sub m q n p = Some (replace m p (differences sub x0 rest)).
Proof. exact differences_correct. Qed.
Print Assumptions c24_differences.
(** in exact arithmetic they are inverse to each other *)
Theorem c24_inverse :
  forall (V : Type) (add sub : V -> V -> V),
  (forall x y, sub (add x y) x = y) -> (forall x y, add x (sub y x) = y) ->
  forall (x0 : V) (rest : list V),
  sums add x0 (differences sub x0 rest) = x0 :: rest /\
  (forall t, sums add x0 rest = x0 :: t -> differences sub x0 t = rest).
Proof.
  intros V add sub H1 H2 x0 rest. split; [now apply sums_of_differences|]. intros t Ht. now apply (differences_of_sums V add sub H1).
Qed.
Print Assumptions c24_inverse.
Example c24_instance :
  arr_cusum Z Z.add [1;2;3;4;0;0;0;0]%Z 0 4 4 = Some [1;2;3;4;1;3;6;10]%Z /\
  arr_differences Z Z.sub [1;3;6;10;0;0;0]%Z 0 4 4 = Some [1;3;6;10;2;3;4]%Z /\
  (forall x y, (x + y - x = y)%Z) /\ (forall x y, (x + (y - x) = y)%Z).
Proof. repeat split; intros; ring. Qed.

(** C25: increment adds one *)
Theorem c25_increment_adds_one :
  forall (m : list Z) (p size : nat) (ds : list Z) (base : Z),
  (0 < base <= two32)%Z -> slice m p size = Some ds -> Forall (digit base) ds ->
  exists ds', sequence_increment m p size base = Some (replace m p ds') /\ length ds' = size /\ Forall (digit base) ds' /\
  number base ds' = ((number base ds + 1) mod base ^ Z.of_nat size)%Z.
Proof. exact sequence_increment_correct. Qed.
Print Assumptions c25_increment_adds_one.
(** C25: sequences writes consecutive numbers *)
Theorem c25_sequences_consecutive :
  forall (m : list Z) (out : nat) (base : Z) (digits n : nat) (ds0 : list Z),
  (0 < base <= two32)%Z -> 0 < n -> 0 < digits -> slice m out digits = Some ds0 -> Forall (digit base) ds0 -> out + digits * n <= length m ->
  exists L : list (list Z),
    times_sequences base digits n m out = Some (replace m out (concat L)) /\ length L = n /\
    forall k ds, nth_error L k = Some ds ->
      length ds = digits /\ Forall (digit base) ds /\ number base ds = ((number base ds0 + Z.of_nat k) mod base ^ Z.of_nat digits)%Z.
Proof. exact sequences_correct. Qed.
Print Assumptions c25_sequences_consecutive.
(** C25: base^digits of them enumerate every digit string exactly once *)
Theorem c25_sequences_enumerate :
  forall (m : list Z) (out : nat) (base : Z) (digits n : nat) (ds0 : list Z),
  (0 < base <= two32)%Z -> 0 < digits -> Z.of_nat n = (base ^ Z.of_nat digits)%Z ->
  slice m out digits = Some ds0 -> Forall (digit base) ds0 -> out + digits * n <= length m ->
  exists L : list (list Z),
    times_sequences base digits n m out = Some (replace m out (concat L)) /\ length L = n /\ Forall (fun ds => length ds = digits) L /\
    forall ds, length ds = digits -> Forall (digit base) ds -> exists! k, nth_error L k = Some ds.
Proof.
  intros m out base digits n ds0 Hb Hd Hn HS HF HO.
  assert (0 < n) by (assert (0 < base ^ Z.of_nat digits)%Z by (apply Z.pow_pos_nonneg; lia); lia).
  destruct (sequences_correct m out base digits n ds0 Hb H Hd HS HF HO) as [L [E [LL HK]]]. exists L. splits; auto.
  - apply Forall_forall. intros ds Hin. apply In_nth_error in Hin. destruct Hin as [k Hk]. apply (HK k ds Hk).
  - apply (sequences_enumerate base digits ds0 L); auto; [lia|]. now rewrite LL.
Qed.
Print Assumptions c25_sequences_enumerate.
Example c25_instance :
  sequence_increment [2;2;0;9]%Z 0 3 3 = Some [0;0;1;9]%Z /\
  times_sequences 2 2 4 [0;0;7;7;7;7;7;7;9]%Z 0 = Some [0;0;1;0;0;1;1;1;9]%Z.
Proof. split; reflexivity. Qed.

(** C28: bits, reading only the words that hold them *)
Theorem c28_bits_to_times :
  forall (m : list Z) (a : nat) (words : list Z) (size out : nat),
  slice m a (words_of_bits size) = Some words -> out + size <= length m -> disjoint a (words_of_bits size) out size ->
  times_bits_to_times m a size out = Some (replace m out (map (bit_of words) (seq 0 size))).
Proof. exact bits_correct. Qed.
Print Assumptions c28_bits_to_times.
(** C28: as documented "a/out can be the same pointer"; the first written bits destroy the word being read *)
Theorem c28_bits_in_place_refuted :
  forall (m words m' : list Z) (a size : nat), slice m a (words_of_bits size) = Some words -> 2 <= size -> bit_of words 1 = 1%Z ->
  times_bits_to_times m a size a = Some m' -> nth_error m' (a + 1) <> Some (bit_of words 1).
Proof. intros m words m' a size _ hs hb e. rewrite hb, (bits_in_place m a size m' hs e). discriminate. Qed.
Print Assumptions c28_bits_in_place_refuted.
Example c28_bits_in_place_instance : slice [2;0]%Z 0 (words_of_bits 2) = Some [2]%Z /\ bit_of [2]%Z 1 = 1%Z /\ times_bits_to_times [2;0]%Z 0 2 0 = Some [0;0]%Z.
Proof. splits; reflexivity. Qed.
Theorem c28_gt_indices :
  forall (m : list Z) (a size : nat) (la : list Z) (n : Z) (out : nat),
  slice m a size = Some la -> out + length (indices_above n la) <= length m -> readable a out size ->
  times_gt_indices m a size n out = Some (replace m out (indices_above n la), length (indices_above n la)).
Proof. exact gt_indices_correct. Qed.
Print Assumptions c28_gt_indices.
Theorem c28_select :
  forall (m : list Z) (in_ : nat) (la : list Z) (size idx : nat) (ks : list Z) (count out : nat),
  slice m in_ size = Some la -> slice m idx count = Some ks -> Forall (fun k => 0 <= k < Z.of_nat size)%Z ks ->
  out + count <= length m -> readable idx out count -> disjoint in_ size out count ->
  times_select m in_ idx count out = Some (replace m out (map (fun k => nth (Z.to_nat k) la 0%Z) ks)).
Proof. exact select_correct. Qed.
Print Assumptions c28_select.
(** C28: select in place, as its comment allows, takes values that are already overwritten *)
Theorem c28_select_in_place_refuted :
  forall (m m' la : list Z) (in_ size idx count : nat) (k : Z) (ks : list Z), slice m in_ size = Some la -> slice m idx count = Some (k :: 0%Z :: ks) ->
  in_ + count <= idx -> (0 <= k < Z.of_nat size)%Z -> nth (Z.to_nat k) la 0%Z <> nth 0 la 0%Z ->
  times_select m in_ idx count in_ = Some m' -> nth_error m' (in_ + 1) <> Some (nth 0 la 0%Z).
Proof. exact select_in_place_wrong. Qed.
Print Assumptions c28_select_in_place_refuted.
Example c28_select_in_place_instance : slice [5;6;1;0]%Z 0 2 = Some [5;6]%Z /\ slice [5;6;1;0]%Z 2 2 = Some [1;0]%Z /\ times_select [5;6;1;0]%Z 0 2 2 0 = Some [6;6;1;0]%Z.
Proof. splits; reflexivity. Qed.
(** C28: whatever the random words are, random binary reads only words it has allocated and writes their bits *)
Theorem c28_random_binary :
  forall (random : nat -> list Z) (m : list Z) (size out : nat),
  (forall n, length (random n) = n) -> out + size <= length m ->
  times_random_binary random m size out =
  Some (replace m out (map (bit_of (random (random_binary_size size))) (seq 0 size))).
Proof. exact random_binary_correct. Qed.
Print Assumptions c28_random_binary.
(** C28: select random takes the elements whose random bit is set, in order *)
Theorem c28_select_random :
  forall (random : nat -> list Z) (m : list Z) (a size : nat) (la : list Z) (out : nat),
  (forall n, length (random n) = n) -> slice m a size = Some la -> out + size <= length m -> disjoint a size out size ->
  let chosen := select_set (random (random_binary_size size)) la in
  exists m', times_select_random random m a size out = Some (m', length chosen) /\
  length m' = length m /\ slice m' out (length chosen) = Some chosen /\
  (forall j, j < out \/ out + size <= j -> nth_error m' j = nth_error m j).
Proof. exact select_random_correct. Qed.
Print Assumptions c28_select_random.
Example c28_instance :
  times_bits_to_times [6;0;0;0;9]%Z 0 3 1 = Some [6;0;1;1;9]%Z /\
  times_gt_indices [4;9;2;8]%Z 0 4 3 0 = Some ([0;1;3;8]%Z, 3) /\
  times_select [4;9;2;8;3;1;0;0]%Z 0 4 2 6 = Some [4;9;2;8;3;1;8;9]%Z /\
  times_random_binary (fun n => repeat 5%Z n) [7;7;7;7]%Z 3 0 = Some [1;0;1;7]%Z /\
  times_select_random (fun n => repeat 5%Z n) [10;11;12;0;0;0]%Z 0 3 3 = Some ([10;11;12;10;12;1]%Z, 2) /\
  select_set [5]%Z [10;11;12]%Z = [10;12]%Z.
Proof. repeat split. Qed.

(** C29 *)
Theorem c29_remove :
  forall (m : list Z) (in_ size : nat) (l : list Z) (index count out : nat),
  slice m in_ size = Some l -> index + count <= size -> out + (size - count) <= length m -> disjoint in_ size out (size - count) ->
  times_remove m in_ size index count out = Some (replace m out (removed l index count)).
Proof. exact remove_correct. Qed.
Print Assumptions c29_remove.
Theorem c29_insert_space :
  forall (m : list Z) (in_ size : nat) (l : list Z) (index count out : nat),
  slice m in_ size = Some l -> index <= size -> out + size + count <= length m -> disjoint in_ size out (size + count) ->
  exists m', times_insert_space m in_ size index count out = Some m' /\ length m' = length m /\
  slice m' out index = Some (firstn index l) /\ slice m' (out + index + count) (size - index) = Some (skipn index l) /\
  (forall j, j < out \/ (out + index <= j /\ j < out + index + count) \/ out + size + count <= j -> nth_error m' j = nth_error m j).
Proof. exact insert_space_correct. Qed.
Print Assumptions c29_insert_space.
Theorem c29_insert_then_remove :
  forall (m : list Z) (in_ size : nat) (l : list Z) (index count out out2 : nat),
  slice m in_ size = Some l -> index <= size ->
  out + size + count <= length m -> disjoint in_ size out (size + count) ->
  out2 + size <= length m -> disjoint out (size + count) out2 size ->
  exists m' m2, times_insert_space m in_ size index count out = Some m' /\
  times_remove m' out (size + count) index count out2 = Some m2 /\ slice m2 out2 size = Some l.
Proof. exact insert_remove. Qed.
Print Assumptions c29_insert_then_remove.
Theorem c29_subdivide :
  forall (m : list Z) (a size : nat) (l : list Z) (index count out : nat),
  slice m a size = Some l -> Forall word l -> (Z.of_nat (count + 1) < two32)%Z ->
  index + 1 < size -> (nth index l 0 <= nth (index + 1) l 0)%Z ->
  out + size + count <= length m -> disjoint a size out (size + count) ->
  times_subdivide_difference m a size index count out = Some (replace m out (subdivided l index count)).
Proof. exact subdivide_correct. Qed.
Print Assumptions c29_subdivide.
Example c29_instance :
  times_remove [1;2;3;4;5;0;0;0]%Z 0 5 1 2 5 = Some [1;2;3;4;5;1;4;5]%Z /\
  times_insert_space [1;2;3;0;0;0;0;0]%Z 0 3 1 2 3 = Some [1;2;3;1;0;0;2;3]%Z /\
  times_subdivide_difference [4;16;0;0;0;0;0]%Z 0 2 0 3 2 = Some [4;16;4;7;10;13;16]%Z /\
  subdivided [4;16]%Z 0 3 = [4;7;10;13;16]%Z.
Proof. repeat split. Qed.

(** C30: only when every value is at most max or at least min, that is always when min <= max, the whole array is copied *)
Theorem c30_extract_copies_partial :
  forall (m : list Z) (a size : nat) (la : list Z) (min max : Z) (out : nat),
  slice m a size = Some la -> out + size <= length m -> readable a out size ->
  Forall (fun x => x <= max \/ min <= x)%Z la ->
  times_extract_in_range m a size min max out = Some (replace m out la, size).
Proof. exact extract_all. Qed.
Print Assumptions c30_extract_copies_partial.
Example c30_instance : times_extract_in_range [3;4;0;0;0]%Z 0 2 2 6 2 = Some ([3;4;3;4;0]%Z, 2).
Proof. reflexivity. Qed.
Theorem c30_extract_refuted :
  exists (m la : list Z) (min max : Z), slice m 0 3 = Some la /\ (min <= max)%Z /\
  exists m' n, times_extract_in_range m 0 3 min max 3 = Some (m', n) /\
  slice m' 3 n <> Some (filter (fun x => (min <=? x) && (x <=? max))%Z la).
Proof. exists [1;5;9;0;0;0]%Z, [1;5;9]%Z, 4%Z, 6%Z. repeat split; [discriminate|]. exists [1;5;9;1;5;9]%Z, 3. split; [reflexivity|discriminate]. Qed.
Print Assumptions c30_extract_refuted.

(** C34: limit of times; out may be the input *)
Theorem c34_times_limit :
  forall (m : list Z) (a n : nat) (la : list Z) (lim : Z) (out : nat),
  slice m a n = Some la -> out + n <= length m -> readable a out n ->
  times_limit m a n lim out = Some (replace m out (map (fun x => Z.min x lim) la)).
Proof. exact limit_correct. Qed.
Print Assumptions c34_times_limit.
Example c34_times_instance : times_limit [1;7;3;9]%Z 0 4 5 0 = Some [1;5;3;5]%Z.
Proof. reflexivity. Qed.
