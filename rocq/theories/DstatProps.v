(** * C120: statistics in double precision *)
From Coq Require Import ZArith Reals List Bool Lia Lra.
From Flocq Require Import Core BinarySingleNaN.
From Verif Require Import Base DblModel DblSpec DblProofs Dbl2Proofs SortModel DstatModel DstatSpec DstatProofs Dstat2Proofs Dstat3Proofs Dstat4Proofs Dstat5Proofs.
Import ListNotations.
Open Scope R_scope.

(** the smallest and the greatest sample are found exactly, and the range has at most one rounding error *)
Theorem c120_range : forall a n, (1 <= n <= length a)%nat -> Forall finite (firstn n a) ->
  exists mn mx r, samples_range64 a n = Some (mn, mx, r) /\ smallest (firstn n a) mn /\ greatest (firstn n a) mx /\
    (real mx - real mn <= IZR (2 ^ 1000) -> finite r /\ Rabs (real r - (real mx - real mn)) <= unit_roundoff * (real mx - real mn)).
Proof. exact range_near. Qed.
Print Assumptions c120_range.
Example c120_range_case : option_map (fun '(x, y, z) => (B2SF x, B2SF y, B2SF z)) (samples_range64 [f_of_Z 3; f_of_Z (-2); f_of_Z 7; f_of_Z 20] 3) = Some (B2SF (f_of_Z (-2)), B2SF (f_of_Z 7), B2SF (f_of_Z 9)).
Proof. vm_compute. reflexivity. Qed.

(** the mean *)
Theorem c120_mean : forall a n, (1 <= n <= length a)%nat -> (Z.of_nat n < 2 ^ 32)%Z -> Forall finite (firstn n a) -> real_abs_sum (firstn n a) <= IZR (2 ^ 1000) ->
  exists v, samples_mean64 a n = Some v /\ finite v /\ Rabs (real v - mean (firstn n a)) <= 14 * unit_roundoff * real_abs_sum (firstn n a) + / IZR (2 ^ 1022).
Proof. exact mean_near. Qed.
Print Assumptions c120_mean.
Example c120_mean_case : option_map B2SF (samples_mean64 [f_of_Z 3; f_of_Z (-2); f_of_Z 8; f_of_Z 20] 3) = Some (B2SF (f_of_Z 3)).
Proof. vm_compute. reflexivity. Qed.

(** the standard deviation: never the root of a negative number, and near the exact deviation.
    [m] bounds the samples *)
Theorem c120_deviation : forall a n m, (1 <= n <= length a)%nat -> (Z.of_nat n < 2 ^ 32)%Z -> Forall (fun x => finite x /\ Rabs (real x) <= m) (firstn n a) -> 0 <= m <= IZR (2 ^ 480) ->
  exists v, samples_deviation64 a n = Some v /\ finite v /\ 0 <= real v /\ Rabs (real v - deviation (firstn n a)) <= 10 * m * sqrt (INR n * unit_roundoff) + / IZR (2 ^ 262).
Proof. exact deviation_near. Qed.
Print Assumptions c120_deviation.
Example c120_deviation_case : option_map B2SF (samples_deviation64 [f_of_Z 2; f_of_Z 4; f_of_Z 4; f_of_Z 4; f_of_Z 5; f_of_Z 5; f_of_Z 7; f_of_Z 9; f_of_Z 100] 8) = Some (B2SF (f_of_Z 2)).
Proof. vm_compute. reflexivity. Qed.

(** scaling to times, if not all samples are positive and the range is not extreme: the results are in 0..max, in the order of the samples,
    the smallest sample becomes 0 and the greatest max, each is at most half a unit and 2^-18 away from the exact proportion,
    and the rest of the output is untouched *)
Theorem c120_scale : forall a size max out low high, (1 <= size <= length a)%nat -> (size <= length out)%nat -> (0 <= max < 2 ^ 32)%Z -> Forall finite (firstn size a) ->
  smallest (firstn size a) low -> greatest (firstn size a) high -> real low <= 0 -> / IZR (2 ^ 900) <= real high - real low <= IZR (2 ^ 990) ->
  exists out', scale_to_times64 a size max out = Some out' /\ length out' = length out /\
    (forall i, (i < size)%nat -> exists x y, nth_error a i = Some x /\ nth_error out' i = Some y /\ (0 <= y <= max)%Z /\
      Rabs (IZR y - IZR max * ((real x - real low) / (real high - real low))) <= / 2 + / IZR (2 ^ 18) /\ (real x = real low -> y = 0%Z) /\ (real x = real high -> y = max)) /\
    (forall i j x x' y y', (i < size)%nat -> (j < size)%nat -> nth_error a i = Some x -> nth_error a j = Some x' -> nth_error out' i = Some y -> nth_error out' j = Some y' -> real x <= real x' -> (y <= y')%Z) /\
    (forall i, (size <= i)%nat -> nth_error out' i = nth_error out i).
Proof. exact scale_ok. Qed.
Print Assumptions c120_scale.
Example c120_scale_case : scale_to_times64 [f_of_Z (-1); f_of_Z 0; f_of_Z 3; f_of_Z 8] 3 8 [9; 9; 9; 9]%Z = Some [0; 2; 8; 9]%Z.
Proof. vm_compute. reflexivity. Qed.
(** equal samples: an infinity or not-a-number is converted to an integer, which is undefined *)
Theorem c120_scale_equal : forall a size max out, (1 <= size <= length a)%nat -> (0 <= max < 2 ^ 32)%Z -> Forall finite (firstn size a) ->
  (forall x y, In x (firstn size a) -> In y (firstn size a) -> real x = real y) -> scale_to_times64 a size max out = None.
Proof. exact scale_equal. Qed.
Print Assumptions c120_scale_equal.
Example c120_scale_equal_case : scale_to_times64 [f_of_Z 3; f_of_Z 3] 2 8 [9; 9]%Z = None.
Proof. vm_compute. reflexivity. Qed.
