(** * C125: arithmetic on arrays of samples in double precision *)
From Coq Require Import ZArith Reals List Bool Lia Lra.
From Flocq Require Import Core BinarySingleNaN.
From Verif Require Import Base DblModel DblSpec DblProofs Dbl2Proofs ArrModel DarrModel DarrSpec DarrProofs Darr2Proofs Darr3Proofs.
Import ListNotations.
Open Scope R_scope.

(** differences have at most one rounding error each *)
Theorem c125_differences : forall a n out, (1 <= n <= length a)%nat -> (n - 1 <= length out)%nat -> Forall (fun x => finite x /\ Rabs (real x) <= IZR (2 ^ 1000)) (firstn n a) ->
  exists out', samples_differences64 a n out = Some out' /\ rest_kept (n - 1) out out' /\
    forall i x y, (S i < n)%nat -> nth_error a i = Some x -> nth_error a (S i) = Some y ->
      exists v, nth_error out' i = Some v /\ finite v /\ Rabs (real v - (real y - real x)) <= unit_roundoff * Rabs (real y - real x).
Proof. exact differences_near. Qed.
Print Assumptions c125_differences.
Example c125_differences_case : option_map (map B2SF) (samples_differences64 [f_of_Z 3; f_of_Z (-2); f_of_Z 8; f_of_Z 1] 3 [f_of_Z 9; f_of_Z 9; f_of_Z 9]) = Some (map B2SF [f_of_Z (-5); f_of_Z 10; f_of_Z 9]).
Proof. vm_compute. reflexivity. Qed.

(** divisions: element i is start / divisor ^ i with at most 2 * i units of roundoff, as long as these numbers are neither extremely small nor extremely large *)
Theorem c125_divisions : forall start divisor n out, INR n <= IZR (2 ^ 50) -> (n <= length out)%nat -> finite start -> finite divisor ->
  (forall i, (i < n)%nat -> / IZR (2 ^ 1000) <= Rabs (real start / real divisor ^ i) <= IZR (2 ^ 1000)) ->
  exists out', samples_divisions64 start divisor n out = Some out' /\ rest_kept n out out' /\
    forall i, (i < n)%nat -> exists v, nth_error out' i = Some v /\ finite v /\
      Rabs (real v - real start / real divisor ^ i) <= 2 * INR i * unit_roundoff * Rabs (real start / real divisor ^ i).
Proof. exact divisions_near. Qed.
Print Assumptions c125_divisions.
Example c125_divisions_case : option_map (map B2SF) (samples_divisions64 (f_of_Z 12) (f_of_Z 2) 3 [f_of_Z 9; f_of_Z 9; f_of_Z 9; f_of_Z 9]) = Some (map B2SF [f_of_Z 12; f_of_Z 6; f_of_Z 3; f_of_Z 9]).
Proof. vm_compute. reflexivity. Qed.

(** blending: the fractions 0 and 1 give the inputs exactly, others the exact blend within 4 units of roundoff of the greatest input *)
Theorem c125_blend : forall a b t n out M, (n <= length a)%nat -> (n <= length b)%nat -> (n <= length out)%nat -> finite t -> 0 <= real t <= 1 -> M <= IZR (2 ^ 1000) ->
  Forall (fun x => finite x /\ Rabs (real x) <= M) (firstn n a) -> Forall (fun x => finite x /\ Rabs (real x) <= M) (firstn n b) ->
  exists out', samples_blend64 a b t n out = Some out' /\ rest_kept n out out' /\
    forall i x y, (i < n)%nat -> nth_error a i = Some x -> nth_error b i = Some y -> exists v, nth_error out' i = Some v /\ finite v /\
      Rabs (real v - ((1 - real t) * real x + real t * real y)) <= 4 * unit_roundoff * M + / IZR (2 ^ 1020) /\ (real t = 0 -> real v = real x) /\ (real t = 1 -> real v = real y).
Proof. exact blend_near. Qed.
Print Assumptions c125_blend.
Example c125_blend_case : option_map (map B2SF) (samples_blend64 [f_of_Z 4; f_of_Z 0] [f_of_Z 8; f_of_Z (-4)] fhalf 2 [f_of_Z 9; f_of_Z 9; f_of_Z 9]) = Some (map B2SF [f_of_Z 6; f_of_Z (-2); f_of_Z 9]).
Proof. vm_compute. reflexivity. Qed.
(** the blend of two equal numbers can be below both: 3 and 3 with the double next to 0.3 *)
Theorem c125_blend_outside : exists t v, finite t /\ 0 < real t < 1 /\ samples_blend64 [f_of_Z 3] [f_of_Z 3] t 1 [fzero] = Some [v] /\ real v < real (f_of_Z 3).
Proof.
  exists (fmake 5404319552844595 (-54)), (fmake 6755399441055743 (-51)).
  assert (e1 : real (fmake 5404319552844595 (-54)) = 5404319552844595 * / IZR (2 ^ 54)) by (vm_compute; field).
  assert (e2 : real (fmake 6755399441055743 (-51)) = 6755399441055743 * / IZR (2 ^ 51)) by (vm_compute; field).
  assert (e3 : real (f_of_Z 3) = 3) by (apply f_of_Z_exact; reflexivity). rewrite e1, e2, e3. split; [reflexivity|]. split; [|split].
  - assert (0 < / IZR (2 ^ 54)) by (apply Rinv_0_lt_compat, IZR_lt; reflexivity). assert (/ IZR (2 ^ 54) * IZR (2 ^ 54) = 1) by (apply Rinv_l, Rgt_not_eq, IZR_lt; reflexivity). change (IZR (2 ^ 54)) with 18014398509481984 in *. lra.
  - assert (eqv : B2SF (sample_interpolate64 (f_of_Z 3) (f_of_Z 3) (fmake 5404319552844595 (-54))) = B2SF (fmake 6755399441055743 (-51))) by (vm_compute; reflexivity). apply B2SF_inj in eqv. rewrite <- eqv. reflexivity.
  - assert (0 < / IZR (2 ^ 51)) by (apply Rinv_0_lt_compat, IZR_lt; reflexivity). assert (/ IZR (2 ^ 51) * IZR (2 ^ 51) = 1) by (apply Rinv_l, Rgt_not_eq, IZR_lt; reflexivity). change (IZR (2 ^ 51)) with 2251799813685248 in *. lra.
Qed.
Print Assumptions c125_blend_outside.

(** scaling to a sum. [K] bounds the ratio of the sum of absolute values to the sum; it is 1 for samples of one sign.
    Each element and the sum of all are near the exact ones *)
Theorem c125_scale_sum : forall l n t K, (1 <= n <= length l)%nat -> INR n <= IZR (2 ^ 50) -> Forall finite (firstn n l) -> finite t -> 1 <= K -> 48 * INR n * unit_roundoff * K <= 1 ->
  real_abs_sum (firstn n l) <= K * Rabs (real_sum (firstn n l)) -> / IZR (2 ^ 490) <= Rabs (real_sum (firstn n l)) <= IZR (2 ^ 490) -> / IZR (2 ^ 500) <= Rabs (real t) <= IZR (2 ^ 490) ->
  exists l', samples_scale_sum64 l n t = Some l' /\ rest_kept n l l' /\ Forall finite (firstn n l') /\
    (forall i x, (i < n)%nat -> nth_error l i = Some x -> exists y, nth_error l' i = Some y /\
      Rabs (real y - real x * (real t / real_sum (firstn n l))) <= 28 * INR n * K * unit_roundoff * Rabs (real x * (real t / real_sum (firstn n l))) + / IZR (2 ^ 1022)) /\
    Rabs (real_sum (firstn n l') - real t) <= 28 * INR n * K ^ 2 * unit_roundoff * Rabs (real t) + INR n * / IZR (2 ^ 1022).
Proof. exact scale_sum_near. Qed.
Print Assumptions c125_scale_sum.
Example c125_scale_sum_case : option_map (map B2SF) (samples_scale_sum64 [f_of_Z 1; f_of_Z 2; f_of_Z 5; f_of_Z 7] 3 (f_of_Z 4)) = Some (map B2SF [fhalf; f_of_Z 1; fmake 5 (-1); f_of_Z 7]).
Proof. vm_compute. reflexivity. Qed.

(** setting the gain scales by amp / m, where m is the peak without its fraction. The error is relative to the greater one of the sample before and after *)
Theorem c125_gain : forall l n amp m, (n <= length l)%nat -> Forall (fun x => finite x /\ Rabs (real x) < IZR (2 ^ 32)) (firstn n l) -> whole_peak (firstn n l) m -> (1 <= m)%Z ->
  finite amp -> / IZR (2 ^ 900) <= Rabs (real amp) <= IZR (2 ^ 900) ->
  exists l', samples_set_gain64 l n amp = Some l' /\ rest_kept n l l' /\
    forall i x, (i < n)%nat -> nth_error l i = Some x -> exists y, nth_error l' i = Some y /\ finite y /\
      Rabs (real y - real x * (real amp / IZR m)) <= 8 * unit_roundoff * (Rabs (real x) + Rabs (real x * (real amp / IZR m))) + / IZR (2 ^ 1022).
Proof. exact gain_near. Qed.
Print Assumptions c125_gain.
Example c125_gain_case : option_map (map B2SF) (samples_set_gain64 [f_of_Z 1; f_of_Z (-4); f_of_Z 2; f_of_Z 7] 3 (f_of_Z 2)) = Some (map B2SF [fhalf; f_of_Z (-2); f_of_Z 1; f_of_Z 7]).
Proof. vm_compute. reflexivity. Qed.
(** there is no change for the amplitude 0 and if all samples are below 1 *)
Theorem c125_gain_kept : forall l n amp m, (n <= length l)%nat -> Forall (fun x => finite x /\ Rabs (real x) < IZR (2 ^ 32)) (firstn n l) -> whole_peak (firstn n l) m -> finite amp -> real amp = 0 \/ m = 0%Z ->
  samples_set_gain64 l n amp = Some l.
Proof. exact gain_kept. Qed.
Print Assumptions c125_gain_kept.
Example c125_gain_kept_case : option_map (map B2SF) (samples_set_gain64 [fhalf; fhalf] 2 (f_of_Z 2)) = Some (map B2SF [fhalf; fhalf]).
Proof. vm_compute. reflexivity. Qed.
(** a reduction by 2^55 or more gives silence: the correction factor is computed as 1 + (1 - d) / d, which rounds to 0 *)
Theorem c125_gain_silent : forall l n amp m, (n <= length l)%nat -> Forall (fun x => finite x /\ Rabs (real x) < IZR (2 ^ 32)) (firstn n l) -> whole_peak (firstn n l) m -> (1 <= m)%Z ->
  finite amp -> / IZR (2 ^ 900) <= real amp -> real amp * IZR (2 ^ 55) <= IZR m ->
  exists l', samples_set_gain64 l n amp = Some l' /\ forall i, (i < n)%nat -> exists y, nth_error l' i = Some y /\ real y = 0.
Proof. exact gain_silent. Qed.
Print Assumptions c125_gain_silent.
Example c125_gain_silent_case : option_map (map B2SF) (samples_set_gain64 [f_of_Z 1; f_of_Z 4] 2 (fmake 1 (-54))) = Some (map B2SF [fzero; fzero]).
Proof. vm_compute. reflexivity. Qed.
(** matching the gain of another array: the same with the peak of the reference *)
Theorem c125_unity_gain : forall l reference n m r, (n <= length l)%nat -> (n <= length reference)%nat -> Forall (fun x => finite x /\ Rabs (real x) < IZR (2 ^ 32)) (firstn n l) ->
  Forall (fun x => finite x /\ Rabs (real x) < IZR (2 ^ 32)) (firstn n reference) -> whole_peak (firstn n l) m -> whole_peak (firstn n reference) r -> (1 <= m)%Z -> (1 <= r)%Z ->
  exists l', samples_set_unity_gain64 l reference n = Some l' /\ rest_kept n l l' /\
    forall i x, (i < n)%nat -> nth_error l i = Some x -> exists y, nth_error l' i = Some y /\ finite y /\
      Rabs (real y - real x * (IZR r / IZR m)) <= 8 * unit_roundoff * (Rabs (real x) + Rabs (real x * (IZR r / IZR m))) + / IZR (2 ^ 1022).
Proof. exact unity_near. Qed.
Print Assumptions c125_unity_gain.
Example c125_unity_gain_case : option_map (map B2SF) (samples_set_unity_gain64 [f_of_Z 1; f_of_Z (-4); f_of_Z 7] [f_of_Z 2; f_of_Z 1; f_of_Z 100] 2) = Some (map B2SF [fhalf; f_of_Z (-2); f_of_Z 7]).
Proof. vm_compute. reflexivity. Qed.
