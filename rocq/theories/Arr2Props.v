(** Minimum, maximum, search, exchange, ranges, series and bounded discrete random numbers. *)
From Verif Require Import Base MiscModel MiscSpec ArrModel ArrSpec Arr2Spec CombModel CombSpec ScaleSpec Arr2Model Arr2Proofs Arr2BProofs UniProofs.
From Coq Require Import QArith ZifyBool ZifyNat Permutation Lia.
Open Scope nat_scope.

(** C84: the minimum is one of the elements and no element is less *)
Theorem c84_min :
  forall (V : Type) (lt : V -> V -> bool) (m : list V) (p n : nat) (l : list V), ordered lt -> slice m p n = Some l -> 0 < n ->
  exists x, arr_min V lt m p n = Some x /\ In x l /\ Forall (fun y => lt y x = false) l.
Proof. exact @min_correct. Qed.
Print Assumptions c84_min.
Theorem c84_max :
  forall (V : Type) (lt : V -> V -> bool) (m : list V) (p n : nat) (l : list V), ordered lt -> slice m p n = Some l -> 0 < n ->
  exists x, arr_max V lt m p n = Some x /\ In x l /\ Forall (fun y => lt x y = false) l.
Proof. exact @max_correct. Qed.
Print Assumptions c84_max.
Example c84_min_instance : ordered Z.ltb /\ slice [0;7;3;9;1]%Z 1 3 = Some [7;3;9]%Z /\
  arr_min Z Z.ltb [0;7;3;9;1]%Z 1 3 = Some 3%Z /\ arr_max Z Z.ltb [0;7;3;9;1]%Z 1 3 = Some 9%Z.
Proof. splits; try reflexivity. split; lia. Qed.

(** C84: equality with a value holds if and only if every element is equal to it *)
Theorem c84_equal :
  forall (V : Type) (eq : V -> V -> bool) (m : list V) (p n : nat) (l : list V) (v : V), slice m p n = Some l ->
  arr_equal V eq m p n v = Some (forallb (eq v) l).
Proof. exact @equal_correct. Qed.
Print Assumptions c84_equal.
Example c84_equal_instance : slice [0;7;7;1]%Z 1 2 = Some [7;7]%Z /\ arr_equal Z Z.eqb [0;7;7;1]%Z 1 2 7%Z = Some true /\
  arr_equal Z Z.eqb [0;7;7;1]%Z 0 2 7%Z = Some false /\ arr_equal Z Z.eqb [0;7;7;1]%Z 1 3 7%Z = Some false.
Proof. splits; reflexivity. Qed.
Theorem c84_contains :
  forall (m : list Z) (p n : nat) (l : list Z) (v : Z), slice m p n = Some l ->
  exists r, times_contains m p n v = Some r /\ (r = true <-> In v l).
Proof. exact contains_correct. Qed.
Print Assumptions c84_contains.
Example c84_contains_instance : slice [5;7;8;5]%Z 1 2 = Some [7;8]%Z /\ times_contains [5;7;8;5]%Z 1 2 8%Z = Some true /\
  times_contains [5;7;8;5]%Z 1 2 5%Z = Some false.
Proof. splits; reflexivity. Qed.
(** C84: the sum, modulo 2 to the 32 *)
Theorem c84_sum :
  forall (m : list Z) (p n : nat) (l : list Z), slice m p n = Some l -> times_sum m p n = Some (u32 (zsum l)).
Proof. exact times_sum_correct. Qed.
Print Assumptions c84_sum.
Example c84_sum_instance : times_sum [5;7;8;5]%Z 1 3 = Some 20%Z /\ times_sum [4294967295;7]%Z 0 2 = Some 6%Z.
Proof. splits; reflexivity. Qed.

(** C85: exchange changes exactly the two elements *)
Theorem c85_swap :
  forall (V : Type) (m : list V) (p n : nat) (l : list V) (i1 i2 : nat) (x y : V), slice m p n = Some l ->
  nth_error l i1 = Some x -> nth_error l i2 = Some y ->
  exists m' l', arr_swap V m p i1 i2 = Some m' /\ m' = replace m p l' /\ Permutation l l' /\
  (forall j, nth_error l' j = if j =? i1 then Some y else if j =? i2 then Some x else nth_error l j).
Proof. exact @swap_correct. Qed.
Print Assumptions c85_swap.
Example c85_swap_instance : slice [0;7;3;9;1]%Z 1 3 = Some [7;3;9]%Z /\ arr_swap Z [0;7;3;9;1]%Z 1 0 2 = Some [0;9;3;7;1]%Z /\
  replace [0;7;3;9;1]%Z 1 [9;3;7]%Z = [0;9;3;7;1]%Z.
Proof. splits; reflexivity. Qed.
(** C85: the elements from start to before end are copied, nothing else changes *)
Theorem c85_range :
  forall (V : Type) (m : list V) (input start end_ out : nat) (l : list V),
  start <= end_ -> slice m (input + start) (end_ - start) = Some l -> out + (end_ - start) <= length m ->
  readable (input + start) out (end_ - start) ->
  arr_range V m input start end_ out = Some (replace m out l).
Proof. exact @range_correct. Qed.
Print Assumptions c85_range.
Example c85_range_instance : readable (0 + 1) 4 (3 - 1) /\ arr_range Z [5;6;7;8;0;0;0]%Z 0 1 3 4 = Some [5;6;7;8;6;7;0]%Z.
Proof. split; [right; lia|reflexivity]. Qed.
(** C85: the arithmetic series, for all kinds of values and for times *)
Theorem c85_additions :
  forall (V : Type) (add : V -> V -> V) (start summand : V) (count : nat) (m : list V) (out : nat), out + count <= length m ->
  arr_additions V add start summand count m out = Some (replace m out (series add start summand count)).
Proof. exact @additions_correct. Qed.
Print Assumptions c85_additions.
Theorem c85_times_additions :
  forall (start summand : Z) (count : nat) (m : list Z) (out : nat), word start -> out + count <= length m ->
  arr_additions Z t_add start summand count m out =
  Some (replace m out (map (fun i => u32 (start + Z.of_nat i * summand)) (seq 0 count))).
Proof. exact times_additions_correct. Qed.
Print Assumptions c85_times_additions.
Example c85_additions_instance : word 4%Z /\ arr_additions Z t_add 4%Z 3%Z 3 [0;0;0;0;0]%Z 1 = Some [0;4;7;10;0]%Z /\
  series Z.add 4%Z 3%Z 3 = [4;7;10]%Z.
Proof. splits; try reflexivity. split; reflexivity || lia. Qed.

(** C86: a time of the range, selected with the weights of the distribution *)
Theorem c86_time_bounded_partial :
  forall (St : Type) (random : St -> Z -> option (Z * St)) (dist : list Z) (range : Z) (st : St),
  bounded random -> Forall (fun x => 0 <= x)%Z dist -> (0 < zsum dist)%Z -> 2 <= length dist -> (0 <= range < two32)%Z ->
  exists v st' i p, time_random_discrete_bounded St random (cumulative dist) range st = Some (v, st') /\
  nth_error dist i = Some p /\ (0 < p)%Z /\ (0 <= v <= range)%Z /\
  rounded (inject_Z range * (inject_Z (Z.of_nat i) / inject_Z (Z.of_nat (length dist - 1)))) v.
Proof. exact @time_bounded_correct. Qed.
Print Assumptions c86_time_bounded_partial.
(** the generator returns 0, 1, 2, ... modulo the bound *)
Definition counting (st : nat) (bound : Z) : option (Z * nat) := Some ((Z.of_nat st mod bound)%Z, S st).
Example c86_time_instance : bounded counting /\ zsum [1;1;2]%Z = 4%Z /\
  map (fun st => option_map fst (time_random_discrete_bounded nat counting (cumulative [1;1;2]%Z) 10 st)) [0;1;2;3] =
  [Some 0; Some 5; Some 10; Some 10]%Z.
Proof. splits; try reflexivity. intros st b H. do 2 eexists. split; [reflexivity|]. apply Z.mod_pos_bound. exact H. Qed.
(** C86: the end of the range, which is said to be excluded, is returned *)
Theorem c86_time_end_refuted :
  forall (St : Type) (random : St -> Z -> option (Z * St)) (dist : list Z) (last range d : Z) (st st' : St),
  Forall (fun x => 0 <= x)%Z (dist ++ [last]) -> dist <> [] -> (0 <= range < two32)%Z ->
  random st (zsum dist + last)%Z = Some (d, st') -> (zsum dist <= d < zsum dist + last)%Z ->
  time_random_discrete_bounded St random (cumulative (dist ++ [last])) range st = Some (range, st').
Proof. intros St random dist p range d st st' h1 h2 h3 h4 h5. exact (discrete_end random dist p range d st st' h1 h5 h4 h2 h3). Qed.
Print Assumptions c86_time_end_refuted.
Example c86_time_end_case : time_random_discrete_bounded nat counting (cumulative ([1] ++ [1]))%Z 10 1 = Some (10%Z, 2) /\ counting 1 (zsum [1] + 1)%Z = Some (1%Z, 2).
Proof. split; reflexivity. Qed.
(** C86: no result is defined for a distribution of one number *)
Theorem c86_time_one_refuted :
  forall (St : Type) (random : St -> Z -> option (Z * St)) (weight range : Z) (st : St),
  time_random_discrete_bounded St random (cumulative [weight]) range st = None.
Proof. intros St random weight. exact (time_bounded_one random _). Qed.
Print Assumptions c86_time_one_refuted.
Example c86_time_one_instance : option_map fst (random_discrete counting (cumulative [3]%Z) 0) = Some 0.
Proof. reflexivity. Qed.
(** C86: samples never reach the end of the range *)
Theorem c86_sample_bounded :
  forall (St : Type) (random : St -> Z -> option (Z * St)) (dist : list Z) (range : Q) (st : St),
  bounded random -> Forall (fun x => 0 <= x)%Z dist -> (0 < zsum dist)%Z -> (0 < range)%Q ->
  exists v st' i p, sample_random_discrete_bounded St random (cumulative dist) range st = Some (v, st') /\
  nth_error dist i = Some p /\ (0 < p)%Z /\ (0 <= v < range)%Q /\
  (v == range * inject_Z (Z.of_nat i) / inject_Z (Z.of_nat (length dist)))%Q.
Proof. exact @sample_bounded_correct. Qed.
Print Assumptions c86_sample_bounded.
Example c86_sample_instance : match sample_random_discrete_bounded nat counting (cumulative [1;1;2]%Z) 3 2 with
  Some (v, _) => (v == 2)%Q | None => False end.
Proof. reflexivity. Qed.
