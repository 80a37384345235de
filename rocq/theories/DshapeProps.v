(** * C126: shapes, rounding amounts and blends of times in double precision *)
From Coq Require Import ZArith Reals List Bool Lia Lra.
From Flocq Require Import Core BinarySingleNaN.
From Verif Require Import Base DblModel DblSpec DblProofs Dbl2Proofs DarrModel DarrSpec DarrProofs DshapeModel DshapeProofs.
Import ListNotations.
Open Scope R_scope.

(** sp_triangle: from 0 to 1, rising over a steps from 0 and falling over b steps to 0, with at most 3 units of roundoff; so 0 at the start of each period *)
Theorem c126_triangle : forall t a b, (0 <= t < 2 ^ 32)%Z -> (0 <= a)%Z -> (0 <= b)%Z -> (0 < a + b < 2 ^ 32)%Z ->
  exists v, triangle64 t a b = Some v /\ finite v /\ 0 <= real v <= 1 /\ let r := (t mod (a + b))%Z in
    ((r < a)%Z -> Rabs (real v - IZR r / IZR a) <= 3 * unit_roundoff * (IZR r / IZR a) /\ real v < 1) /\
    ((a <= r)%Z -> Rabs (real v - IZR (a + b - r) / IZR b) <= 3 * unit_roundoff * (IZR (a + b - r) / IZR b)).
Proof. exact triangle_near. Qed.
Print Assumptions c126_triangle.
Example c126_triangle_case : map (fun t => option_map B2SF (triangle64 t 2 4)) [0; 1; 2; 4; 6]%Z = map Some (map B2SF [f_of_Z 0; fhalf; f_of_Z 1; fhalf; f_of_Z 0]).
Proof. vm_compute. reflexivity. Qed.
(** the peak is not always 1: with 49 falling steps it is the double before 1, whatever the number of rising steps *)
Theorem c126_triangle_peak : forall a, (0 <= a)%Z -> (a + 49 < 2 ^ 32)%Z -> exists v, triangle64 a a 49 = Some v /\ finite v /\ real v = 1 - unit_roundoff.
Proof. exact peak_49. Qed.
Print Assumptions c126_triangle_peak.
Example c126_triangle_peak_case : (0 <= 10)%Z /\ (10 + 49 < 2 ^ 32)%Z. Proof. split; reflexivity || discriminate. Qed.

(** sp_pan_to_amp for two channels has no rounding errors at all, for any finite value also out of 0 to 1 *)
Theorem c126_pan : forall v, finite v -> let x := real v in let p := real (pan_to_amp64 v 0) in let q := real (pan_to_amp64 v 1) in
  finite (pan_to_amp64 v 0) /\ finite (pan_to_amp64 v 1) /\
  (x <= / 2 -> p = 1) /\ (/ 2 <= x <= 1 -> p = 2 - 2 * x) /\ (1 <= x -> p = 0) /\ (x <= 0 -> q = 0) /\ (0 <= x <= / 2 -> q = 2 * x) /\ (/ 2 <= x -> q = 1).
Proof. exact pan_exact. Qed.
Print Assumptions c126_pan.
Example c126_pan_case : map B2SF (map (pan_to_amp64 (fmake 3 (-2))) [0; 1]%Z) = map B2SF [fhalf; f_of_Z 1].
Proof. vm_compute. reflexivity. Qed.

(** sp_time_harmonize stays between the time and the next multiple of the base, reaches them for the amounts 0 and 1, and is otherwise the exact number without its fraction up to 2^-20 *)
Theorem c126_harmonize : forall a base amount, (0 <= a)%Z -> (0 < base)%Z -> (a + base < 2 ^ 32)%Z -> finite amount -> 0 <= real amount <= 1 ->
  let next := ((a + base - 1) / base * base)%Z in
  exists z, harmonize64 a base amount = Some z /\ (a <= z <= next)%Z /\ IZR z - / IZR (2 ^ 20) <= IZR a + real amount * IZR (next - a) < IZR z + 1 + / IZR (2 ^ 20) /\
    (real amount = 0 -> z = a) /\ (real amount = 1 -> z = next).
Proof. exact harmonize_near. Qed.
Print Assumptions c126_harmonize.
Example c126_harmonize_case : map (harmonize64 13 10) [f_of_Z 0; fhalf; f_of_Z 1] = map Some [13; 16; 20]%Z /\ ((13 + 10 - 1) / 10 * 10 = 20)%Z.
Proof. vm_compute. split; reflexivity. Qed.

(** sp_times_blend and sp_times_mask: times between the two inputs, which are reached exactly for the fractions 0 and 1, and otherwise the nearest time to the exact blend up to 2^-18 *)
Theorem c126_times_blend : forall a b t n out, (n <= length a)%nat -> (n <= length b)%nat -> (n <= length out)%nat -> Forall (fun x => (0 <= x < 2 ^ 32)%Z) a -> Forall (fun x => (0 <= x < 2 ^ 32)%Z) b -> finite t -> 0 <= real t <= 1 ->
  exists out', times_blend64 a b t n out = Some out' /\ length out' = length out /\ (forall i, (n <= i)%nat -> nth_error out' i = nth_error out i) /\
    forall i x y, (i < n)%nat -> nth_error a i = Some x -> nth_error b i = Some y -> exists z, nth_error out' i = Some z /\ (Z.min x y <= z <= Z.max x y)%Z /\
      Rabs (IZR z - ((1 - real t) * IZR x + real t * IZR y)) <= / 2 + / IZR (2 ^ 18) /\ (real t = 0 -> z = x) /\ (real t = 1 -> z = y).
Proof. exact blend_times_near. Qed.
Print Assumptions c126_times_blend.
Example c126_times_blend_case : times_blend64 [10; 20; 4294967295]%Z [20; 10; 4294967295]%Z (fmake 1 (-2)) 3 [0; 0; 0; 7]%Z = Some [13; 18; 4294967295; 7]%Z.
Proof. vm_compute. reflexivity. Qed.
Theorem c126_times_mask : forall a b c n out, (n <= length a)%nat -> (n <= length b)%nat -> (n <= length c)%nat -> (n <= length out)%nat -> Forall (fun x => (0 <= x < 2 ^ 32)%Z) a -> Forall (fun x => (0 <= x < 2 ^ 32)%Z) b ->
  Forall (fun t => finite t /\ 0 <= real t <= 1) c ->
  exists out', times_mask64 a b c n out = Some out' /\ length out' = length out /\ (forall i, (n <= i)%nat -> nth_error out' i = nth_error out i) /\
    forall i x y t, (i < n)%nat -> nth_error a i = Some x -> nth_error b i = Some y -> nth_error c i = Some t -> exists z, nth_error out' i = Some z /\ (Z.min x y <= z <= Z.max x y)%Z /\
      Rabs (IZR z - ((1 - real t) * IZR x + real t * IZR y)) <= / 2 + / IZR (2 ^ 18) /\ (real t = 0 -> z = x) /\ (real t = 1 -> z = y).
Proof. exact mask_near. Qed.
Print Assumptions c126_times_mask.
Example c126_times_mask_case : times_mask64 [10; 20; 0]%Z [20; 10; 9]%Z [fmake 1 (-2); f_of_Z 1] 2 [0; 0; 7]%Z = Some [13; 10; 7]%Z.
Proof. vm_compute. reflexivity. Qed.
(** sp_times_scale has no rounding errors: between two elements it gives the multiples of the line between them, which are integers *)
Theorem c126_times_scale : forall (input : list Z) (count factor : nat) (out : list Z), (Z.of_nat factor < 2 ^ 32)%Z -> (count <= length input)%nat -> (1 <= count)%nat -> (factor * (count - 1) <= length out)%nat ->
  Forall (fun x => 0 <= x /\ x * Z.of_nat factor < 2 ^ 32)%Z input ->
  exists out', times_scale64 input count factor out = Some out' /\ length out' = length out /\ (forall j, (factor * (count - 1) <= j)%nat -> nth_error out' j = nth_error out j) /\
    (forall i k x y, (S i < count)%nat -> (k < factor)%nat -> nth_error input i = Some x -> nth_error input (S i) = Some y ->
      nth_error out' (factor * i + k)%nat = Some ((Z.of_nat factor - Z.of_nat k) * x + Z.of_nat k * y)%Z).
Proof. exact scale64_correct. Qed.
Print Assumptions c126_times_scale.
Example c126_times_scale_case : times_scale64 [1; 3; 2]%Z 3 3 [0; 0; 0; 0; 0; 0; 9]%Z = Some [3; 5; 7; 9; 8; 7; 9]%Z.
Proof. vm_compute. reflexivity. Qed.
