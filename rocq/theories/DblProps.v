(** Properties of double precision arithmetic: C107 (compensated sums), C108 (conversions of units) *)
From Coq Require Import ZArith Reals List Lia Lra.
From Flocq Require Import Core BinarySingleNaN.
From Verif Require Import Base DblModel DblSpec DblProofs Dbl2Proofs.
Import ListNotations.
Open Scope R_scope.

(** C107 (partial): sums of values that are not negative have the error of one rounding, and a part that stays small for all practical counts.
    Missing: values of different signs, see below. *)
Theorem c107_nonnegative_partial : forall numbers len, (1 <= len <= length numbers)%nat -> INR len <= IZR (2 ^ 50) ->
  Forall finite (firstn len numbers) -> Forall (fun x => 0 <= real x) (firstn len numbers) -> real_sum (firstn len numbers) <= IZR (2 ^ 999) ->
  exists s, sum64 numbers len = Some s /\ finite s /\
    Rabs (real s - real_sum (firstn len numbers)) <= (unit_roundoff + 5 * (INR len * unit_roundoff) ^ 2) * real_sum (firstn len numbers).
Proof. intros numbers len h1 h2 h3 h4 h5. apply sum64_nonneg; auto. Qed.
Print Assumptions c107_nonnegative_partial.
(** hypotheses can be met: 2 ^ 53 + 1 + 1 + 1 is exact, uncompensated additions would give 2 ^ 53 *)
Example c107_nonnegative_case : let l := [fmake 1 0; fmake 1 0; fmake 1 0; fmake 1 53] in
  Forall finite l /\ Forall (fun x => 0 <= real x) l /\ option_map (@B2SF 53 1024) (sum64 l 4) = Some (B2SF (fmake (2 ^ 52 + 2) 1)) /\ B2SF (fadd (fadd (fadd (fmake 1 53) (fmake 1 0)) (fmake 1 0)) (fmake 1 0)) = B2SF (fmake 1 53).
Proof.
  assert (p0 : 0 <= real (fmake 1 0)) by (destruct (fmake_exact 1 0) as [_ ->]; try lia; change (bpow radix2 0) with 1; lra).
  assert (p1 : 0 <= real (fmake 1 53)) by (destruct (fmake_exact 1 53) as [_ ->]; try lia; pose proof (bpow_ge_0 radix2 53); lra).
  intros l. split; [repeat (apply Forall_cons; [reflexivity|]); apply Forall_nil|]. split; [repeat (apply Forall_cons; [assumption|]); apply Forall_nil|]. split; vm_compute; reflexivity.
Qed.
(** C107 (partial): for all signs the error is at most that of a plain sum, a multiple of the sum of the magnitudes *)
Theorem c107_general_partial : forall numbers len, (1 <= len <= length numbers)%nat -> INR len <= IZR (2 ^ 50) ->
  Forall finite (firstn len numbers) -> real_abs_sum (firstn len numbers) <= IZR (2 ^ 1000) ->
  exists s, sum64 numbers len = Some s /\ finite s /\
    Rabs (real s - real_sum (firstn len numbers)) <= 12 * INR len * unit_roundoff * real_abs_sum (firstn len numbers).
Proof. intros numbers len h1 h2 h3 h4. apply sum64_general; auto. Qed.
Print Assumptions c107_general_partial.
Example c107_general_case : option_map (@B2SF 53 1024) (sum64 [fmake 3 0; fmake (-1) (-1); fmake 1 1] 3) = Some (B2SF (fmake 9 (-1))).
Proof. vm_compute. reflexivity. Qed.
(** C107 (refuted): the compensation is lost if a value is negative and greater in magnitude than the sum so far, as the values are compared and not their magnitudes:
    the sum of 2 ^ k, - 2 ^ k and 1 is 0 and not 1 *)
Theorem c107_refuted : forall k, (54 <= k <= 953)%Z -> let l := [fmake 1 k; fmake (-1) k; fmake 1 0] in
  Forall finite l /\ real_sum l = 1 /\ exists s, sum64 l 3 = Some s /\ finite s /\ real s = 0.
Proof. intros k h l. destruct (cancel_sum k h) as (h1 & h2 & _). split; [exact h1|]. split; [exact h2|]. exact (cancel k h). Qed.
Print Assumptions c107_refuted.
(** a sum that compares magnitudes gives 1 *)
Example c107_refuted_case : let step element s := let '(correction, result) := s in let temp := fadd result element in
    (fadd correction (if fle (Babs element) (Babs result) then fadd (fsub result temp) element else fadd (fsub element temp) result), temp) in
  let '(c, r) := step (fmake 1 60) (step (fmake (-1) 60) (fzero, fmake 1 0)) in B2SF (fadd c r) = B2SF (fmake 1 0).
Proof. vm_compute. reflexivity. Qed.

(** C108 (partial): sp_cheap_round_positive and sp_sample_to_time give the nearest integer. Missing: one value, see below. *)
Theorem c108_rounding_partial : forall a, finite a -> 0 <= real a -> real a < IZR (2 ^ 32) - / 2 -> real a <> just_below_half ->
  exists z, cheap_round64 a = Some z /\ nearest_integer (real a) z.
Proof. exact cheap_round_exact. Qed.
Print Assumptions c108_rounding_partial.
Example c108_rounding_case : cheap_round64 (fmake 5 (-1)) = Some 3%Z /\ cheap_round64 (fmake 9 (-2)) = Some 2%Z /\ cheap_round64 (fmake (2 ^ 53 - 3) (-54)) = Some 0%Z.
Proof. vm_compute. auto. Qed.
(** C108 (refuted): the greatest double below one half becomes 1 *)
Theorem c108_rounding_refuted : forall a, finite a -> real a = just_below_half -> cheap_round64 a = Some 1%Z /\ ~ nearest_integer (real a) 1.
Proof.
  intros a hf e. split; [exact (cheap_round_exception a hf e)|]. unfold nearest_integer. rewrite e. unfold just_below_half. assert (0 < / IZR (2 ^ 54)) by (apply Rinv_0_lt_compat, IZR_lt; reflexivity). lra.
Qed.
Print Assumptions c108_rounding_refuted.
Example c108_rounding_exception : finite (fmake (2 ^ 53 - 1) (-54)) /\ real (fmake (2 ^ 53 - 1) (-54)) = just_below_half.
Proof. exact exception_value. Qed.
(** C108: from 2 ^ 32 - 1/2 on the conversion is undefined *)
Theorem c108_rounding_limit : forall a, finite a -> IZR (2 ^ 32) - / 2 <= real a <= IZR (2 ^ 1000) -> cheap_round64 a = None.
Proof. intros a hf h. exact (cheap_round_undefined a hf h). Qed.
Print Assumptions c108_rounding_limit.
Example c108_rounding_limit_case : cheap_round64 (fmake (2 ^ 33 - 1) (-1)) = None /\ cheap_round64 (fmake (2 ^ 34 - 3) (-2)) = Some (2 ^ 32 - 1)%Z.
Proof. vm_compute. auto. Qed.
(** C108: times survive the conversion to samples and back *)
Theorem c108_times : forall x, (0 <= x < 2 ^ 32)%Z -> cheap_round64 (time_to_sample64 x) = Some x.
Proof. exact times_round_trip. Qed.
Print Assumptions c108_times.
Example c108_times_case : cheap_round64 (time_to_sample64 (2 ^ 32 - 1)) = Some (2 ^ 32 - 1)%Z.
Proof. vm_compute. reflexivity. Qed.
(** C108: sp_sample_to_unit maps -1..1 to 0..1, with at most two roundings *)
Theorem c108_units : forall a, finite a -> -1 <= real a <= 1 ->
  finite (sample_to_unit64 a) /\ 0 <= real (sample_to_unit64 a) <= 1 /\ Rabs (real (sample_to_unit64 a) - (1 + real a) / 2) <= 2 * unit_roundoff.
Proof. exact sample_to_unit_range. Qed.
Print Assumptions c108_units.
Example c108_units_case : B2SF (sample_to_unit64 (fmake (-1) 0)) = B2SF fzero /\ B2SF (sample_to_unit64 (fmake 1 (-1))) = B2SF (fmake 3 (-2)).
Proof. vm_compute. auto. Qed.
(** C108 (partial): a frequency converted with sp_hz_to_factor and back with sp_factor_to_hz is the same or one hertz less *)
Theorem c108_factor_partial : forall rate x, (1 <= rate < 2 ^ 32)%Z -> (0 <= x < 2 ^ 32)%Z ->
  exists z, factor_to_hz64 rate (hz_to_factor64 rate x) = Some z /\ (x - 1 <= z <= x)%Z.
Proof. exact factor_round_trip. Qed.
Print Assumptions c108_factor_partial.
Example c108_factor_case : factor_to_hz64 96000 (hz_to_factor64 96000 440) = Some 440%Z.
Proof. vm_compute. reflexivity. Qed.
(** C108 (refuted): 27 hertz become 26 at 96000 and 48000 samples per second, 15 become 14 at 44100 *)
Theorem c108_factor_refuted : factor_to_hz64 96000 (hz_to_factor64 96000 27) = Some 26%Z /\ factor_to_hz64 48000 (hz_to_factor64 48000 27) = Some 26%Z /\
  factor_to_hz64 44100 (hz_to_factor64 44100 15) = Some 14%Z.
Proof. vm_compute. auto. Qed.
Print Assumptions c108_factor_refuted.
(** C108 (partial): sp_samples_to_hz undoes sp_hz_to_samples for frequencies up to the square root of the rate, and never gives less up to the rate *)
Theorem c108_wavelength_partial : forall rate x, (1 <= x <= rate)%Z ->
  exists p z, hz_to_samples rate x = Some p /\ samples_to_hz rate p = Some z /\ (x <= z <= rate)%Z /\ ((x * x <= rate)%Z -> z = x).
Proof.
  intros rate x h. destruct (hz_samples_at_least rate x h) as (p & z & h1 & h2 & h3). exists p, z. split; [exact h1|]. split; [exact h2|]. split; [exact h3|].
  intros hx. destruct (hz_samples_exact rate x (proj1 h) hx) as (p' & h4 & h5). congruence.
Qed.
Print Assumptions c108_wavelength_partial.
Example c108_wavelength_case : hz_to_samples 96000 300 = Some 320%Z /\ samples_to_hz 96000 320 = Some 300%Z.
Proof. auto. Qed.
(** C108 (refuted): all frequencies between half the rate and the rate become the rate *)
Theorem c108_wavelength_refuted : forall rate x, (rate < 2 * x)%Z -> (x < rate)%Z -> exists p, hz_to_samples rate x = Some p /\ samples_to_hz rate p = Some rate.
Proof. exact hz_samples_lost. Qed.
Print Assumptions c108_wavelength_refuted.
Example c108_wavelength_refuted_case : exists p, hz_to_samples 96000 50000 = Some p /\ samples_to_hz 96000 p = Some 96000%Z.
Proof. exact (c108_wavelength_refuted 96000 50000 ltac:(lia) ltac:(lia)). Qed.
(** C108 (partial): sp_rate_duration is n / d seconds, exactly so if d divides the rate, else less than n samples short *)
Theorem c108_duration_partial : forall rate n d, (1 <= d)%Z -> (0 <= n)%Z -> (0 <= rate)%Z -> (rate / d * n < 2 ^ 32)%Z ->
  exists v, rate_duration rate n d = Some v /\ (d * v <= rate * n < d * v + d * n \/ n = 0 /\ v = 0)%Z /\ ((d | rate)%Z -> (d * v = rate * n)%Z).
Proof. exact duration_exact. Qed.
Print Assumptions c108_duration_partial.
Example c108_duration_case : rate_duration 96000 3 2 = Some 144000%Z.
Proof. reflexivity. Qed.
(** C108 (refuted): d / d seconds are less than one second if d does not divide the rate *)
Theorem c108_duration_refuted : forall rate d, (1 <= d)%Z -> (1 <= rate < 2 ^ 32)%Z -> ~ (d | rate)%Z -> exists v, rate_duration rate d d = Some v /\ (v < rate)%Z.
Proof. exact duration_second. Qed.
Print Assumptions c108_duration_refuted.
Example c108_duration_refuted_case : rate_duration 96000 7000 7000 = Some 91000%Z /\ rate_duration 96000 100000 100000 = Some 0%Z.
Proof. auto. Qed.
(** C108 (refuted): sp_rad_to_hz does not undo sp_hz_to_rad, the result is wrong by the factor pi * pi *)
Theorem c108_radians_refuted : forall x, rad_to_hz (hz_to_rad x) = PI * PI * x /\ (x <> 0 -> rad_to_hz (hz_to_rad x) <> x).
Proof. intros x. split; [apply radians|apply radians_wrong]. Qed.
Print Assumptions c108_radians_refuted.
Example c108_radians_case : rad_to_hz (hz_to_rad 1) <> 1.
Proof. apply c108_radians_refuted. lra. Qed.
