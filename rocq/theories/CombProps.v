(** Shuffling, discrete random numbers, permutations, compositions: theorems *)
From Verif Require Import Base MiscSpec CombModel CombSpec CombProofs CombEnumProofs.
From Coq Require Import Permutation.

(** C31: with any generator that respects its bound the first [count] elements are permuted and nothing else changes *)
Theorem c31_shuffle_permutes :
  forall (A St : Type) (random : St -> Z -> option (Z * St)) (l : list A) (count : nat) (st : St),
  bounded random -> count <= length l ->
  exists l' st', shuffle random l count st = Some (l', st') /\
  Permutation (firstn count l) (firstn count l') /\ skipn count l' = skipn count l.
Proof. intros A St. exact (@shuffle_permutes A St). Qed.
Print Assumptions c31_shuffle_permutes.
(** C31: every permutation results from exactly one sequence of random numbers, so all are equally likely when the
    generator is uniform *)
Theorem c31_shuffle_unbiased :
  forall (A : Type) (l l' : list A), NoDup l -> Permutation l l' ->
  exists! choices, shuffle choose l (length l) choices = Some (l', []).
Proof. intro A. exact (@shuffle_bijective A). Qed.
Print Assumptions c31_shuffle_unbiased.
Definition counting_source (st : nat) (bound : Z) : option (Z * nat) := Some ((Z.of_nat st mod bound)%Z, S st).
Example c31_instance :
  bounded counting_source /\ shuffle counting_source [10;11;12;13;14]%Z 4 3 = Some ([13;12;10;11;14]%Z, 7) /\
  NoDup [1;2;3]%Z /\ Permutation [1;2;3]%Z [3;1;2]%Z /\ shuffle choose [1;2;3]%Z 3 [2;1;0]%Z = Some ([3;1;2]%Z, []).
Proof.
  splits; try reflexivity.
  - intros st b H. exists (Z.of_nat st mod b)%Z, (S st). split; [reflexivity|]. apply Z.mod_pos_bound. lia.
  - repeat (constructor; [cbn; lia|]). constructor.
  - symmetry. apply (Permutation_cons_app [1;2]%Z []). reflexivity.
Qed.

(** C70: sp_samples_shuffle exchanges 32 bit words of 64 bit samples *)
Theorem c70_samples_shuffle_refuted :
  exists (words words' choices : list Z), length words = 2 * 2 /\
  shuffle choose words 2 choices = Some (words', []) /\ ~ Permutation (samples_of words) (samples_of words').
Proof.
  exists [1;2;3;4]%Z, [2;1;3;4]%Z, [1;0]%Z. splits; try reflexivity. intro H.
  apply (Permutation_in (1, 2)%Z) in H; [|now left]. cbn in H. intuition congruence.
Qed.
Print Assumptions c70_samples_shuffle_refuted.
(** C70: all that holds is that the words of the first half of the memory are permuted *)
Theorem c70_samples_shuffle_words_partial :
  forall (St : Type) (random : St -> Z -> option (Z * St)) (words : list Z) (count : nat) (st : St),
  bounded random -> length words = 2 * count ->
  exists words' st', shuffle random words count st = Some (words', st') /\ Permutation words words' /\ length words' = 2 * count.
Proof.
  intros St random words count st HB HL. destruct (shuffle_permutes random words count st HB ltac:(lia)) as [w [s [E [P K]]]].
  assert (PW : Permutation words w) by (rewrite <- (firstn_skipn count words), <- (firstn_skipn count w), K; now apply Permutation_app_tail).
  exists w, s. splits; auto. now rewrite <- (Permutation_length PW).
Qed.
Print Assumptions c70_samples_shuffle_words_partial.

(** C32: the number returned is the one in whose part of the cumulative range the deviate lies *)
Theorem c32_random_discrete :
  forall (St : Type) (random : St -> Z -> option (Z * St)) (dist : list Z) (st : St),
  bounded random -> Forall (fun x => 0 <= x)%Z dist -> (0 < zsum dist)%Z ->
  exists i st' p d, random_discrete random (cumulative dist) st = Some (i, st') /\ nth_error dist i = Some p /\ (0 < p)%Z /\
  random st (zsum dist) = Some (d, st') /\ (zsum (firstn i dist) <= d < zsum (firstn (S i) dist))%Z.
Proof. intro St. exact (@random_discrete_correct St). Qed.
Print Assumptions c32_random_discrete.
(** C32: exactly dist[i] of the deviates lead to i *)
Theorem c32_weights :
  forall (dist : list Z) (i : nat) (p : Z), Forall (fun x => 0 <= x)%Z dist -> nth_error dist i = Some p ->
  Z.of_nat (length (filter (fun deviate => discrete_index (cumulative dist) deviate =? i) (below (zsum dist)))) = p.
Proof. exact discrete_count. Qed.
Print Assumptions c32_weights.
Theorem c32_random_discrete_array :
  forall (St : Type) (random : St -> Z -> option (Z * St)) (dist : list Z) (count : nat) (out : list Z) (st : St),
  bounded random -> Forall (fun x => 0 <= x)%Z dist -> (0 < zsum dist)%Z -> count <= length out ->
  exists out' st', times_random_discrete random (cumulative dist) count out st = Some (out', st') /\ length out' = length out /\
  (forall j, count <= j -> nth_error out' j = nth_error out j) /\
  (forall j, j < count -> exists k p, nth_error out' j = Some (Z.of_nat k) /\ nth_error dist k = Some p /\ (0 < p)%Z).
Proof. intro St. exact (@times_random_discrete_correct St). Qed.
Print Assumptions c32_random_discrete_array.
Example c32_instance :
  Forall (fun x => 0 <= x)%Z [2;0;3]%Z /\ zsum [2;0;3]%Z = 5%Z /\ cumulative [2;0;3]%Z = [2;2;5]%Z /\
  map (discrete_index [2;2;5]%Z) [0;1;2;3;4]%Z = [0;0;2;2;2] /\
  times_random_discrete counting_source [2;2;5]%Z 3 [9;9;9;9]%Z 1 = Some ([0;2;2;9]%Z, 4).
Proof. splits; try reflexivity. repeat constructor; discriminate. Qed.

(** C75: a call that ends has written [size] different numbers with positive probability *)
Theorem c75_discrete_unique_partial :
  forall (St : Type) (random : St -> Z -> option (Z * St)) (dist : list Z) (size fuel : nat) (out : list Z) (st : St) (out' : list Z) (st' : St),
  bounded random -> Forall (fun x => 0 <= x)%Z dist -> (0 < zsum dist)%Z -> size <= length dist -> size <= length out ->
  random_discrete_unique random fuel (cumulative dist) size out st = Some (out', st') ->
  NoDup (firstn size out') /\
  Forall (fun x => exists k p, x = Z.of_nat k /\ nth_error dist k = Some p /\ (0 < p)%Z) (firstn size out') /\
  length out' = length out /\ skipn size out' = skipn size out.
Proof. intro St. exact (@unique_correct St). Qed.
Print Assumptions c75_discrete_unique_partial.
Example c75_instance : random_discrete_unique counting_source 10 (cumulative [2;1;3]%Z) 3 [9;9;9;9]%Z 0 = Some ([0;1;2;9]%Z, 4).
Proof. reflexivity. Qed.
(** C75: it never ends when fewer numbers have a positive probability than are requested *)
Theorem c75_discrete_unique_no_end_refuted :
  forall (St : Type) (random : St -> Z -> option (Z * St)) (dist : list Z) (size fuel : nat) (out : list Z) (st : St),
  bounded random -> Forall (fun x => 0 <= x)%Z dist -> (0 < zsum dist)%Z -> size <= length dist -> size <= length out ->
  length (filter (fun p => 0 <? p)%Z dist) < size ->
  random_discrete_unique random fuel (cumulative dist) size out st = None.
Proof. intro St. exact (@unique_no_end St). Qed.
Print Assumptions c75_discrete_unique_no_end_refuted.
Example c75_no_end_instance : zsum [1;0]%Z = 1%Z /\ length (filter (fun p => 0 <? p)%Z [1;0]%Z) < 2 /\ random_discrete_unique counting_source 50 (cumulative [1;0]%Z) 2 [9;9]%Z 0 = None.
Proof. splits; try reflexivity. cbn. lia. Qed.
(** C75: when more numbers are requested than exist, the first elements of out are not written *)
Theorem c75_discrete_unique_front_unset_refuted :
  exists fuel dist size out out' st', length dist < size /\ size <= length out /\
  random_discrete_unique counting_source fuel (cumulative dist) size out 0 = Some (out', st') /\
  ~ (exists k, nth_error out' 0 = Some (Z.of_nat k) /\ k < length dist).
Proof.
  exists 5, [1]%Z, 2, [7;7]%Z, [7;0]%Z, 1. splits; try reflexivity; cbn; try lia.
  intros [k [E H]]. injection E as E. lia.
Qed.
Print Assumptions c75_discrete_unique_front_unset_refuted.

(** C26: the arguments of both copies are exchanged: the caller's set is overwritten and all rows are zero *)
Theorem c26_permutations_zero_partial :
  forall (size : nat) (set : list Z), (factorial size < two32)%Z -> size <= length set ->
  exists n rows, (forall fuel, permutations (n + fuel) size set = Some (rows, repeat 0%Z size ++ skipn size set)) /\
  Z.of_nat (length rows) = factorial size /\ Forall (fun r => r = repeat 0%Z size) rows.
Proof. exact permutations_zero. Qed.
Print Assumptions c26_permutations_zero_partial.
Example c26_instance : (factorial 3 < two32)%Z /\ option_map (fun r => length (fst r)) (permutations 100 3 [1;2;3]%Z) = Some 6.
Proof. split; reflexivity. Qed.
Theorem c26_permutations_refuted :
  exists size set rows set', permutations 100 size set = Some (rows, set') /\ size = length set /\
  ~ (exists row, In row rows /\ Permutation row set) /\ set' <> set.
Proof.
  exists 2, [1;2]%Z, [[0;0];[0;0]]%Z, [0;0]%Z. splits; try reflexivity; try discriminate. intros [row [HI HP]].
  assert (row = [0;0]%Z) by (cbn in HI; intuition). subst. apply (Permutation_in 0%Z) in HP; [|now left]. cbn in HP. intuition discriminate.
Qed.
Print Assumptions c26_permutations_refuted.

(** C27: every list of positive numbers with the sum exactly once; 2 ^ (sum - 1) rows *)
Theorem c27_compositions_partial :
  forall sum : nat, 1 <= sum <= 32 ->
  exists n rows, (forall fuel, compositions (n + fuel) sum = Some rows) /\ NoDup rows /\
  Z.of_nat (length rows) = (2 ^ (Z.of_nat sum - 1))%Z /\ (forall l, In l rows <-> composition (Z.of_nat sum) l).
Proof. exact compositions_correct. Qed.
Print Assumptions c27_compositions_partial.
Example c27_instance :
  compositions 100 4 = Some [[1;1;1;1];[1;1;2];[1;2;1];[1;3];[2;1;1];[2;2];[3;1];[4]]%Z /\ composition 4 [1;2;1]%Z.
Proof. split; [reflexivity|]. split; [repeat constructor|reflexivity]. Qed.
(** C27: for 33 the size of the result wraps to zero and the first row is written outside *)
Theorem c27_compositions_33_refuted : forall fuel, compositions fuel 33 = None.
Proof. intros [|fuel]; reflexivity. Qed.
Print Assumptions c27_compositions_33_refuted.
