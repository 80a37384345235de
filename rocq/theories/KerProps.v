(** Theorems about filter kernels and the moving average. *)
From Coq Require Import Reals QArith Lra.
From Verif Require Import Base KerModel KerSpec KerProofs Ker2Proofs MavModel MavSpec MavProofs.
Open Scope R_scope.

(** C07: low pass and high pass kernels: a sinc with a blackman window, scaled to gain one, or an impulse minus that. [junk]: content of new
    memory. If the sum before scaling is zero then there is no result, see [c07_zero_sum_undefined]. *)
Theorem c07_lp_hp :
  forall (junk : nat -> list R) (cutoff transition : R) (is_high_pass : bool) (len : nat), (forall n, length (junk n) = n) ->
  0 < transition < 4 -> kernel_length transition len -> 4 / transition <= 4294967295 ->
  (forall raw, raw_kernel cutoff len raw -> gain raw <> 0) ->
  exists h, lp_hp_ir junk cutoff transition is_high_pass = Some h /\ (if is_high_pass then high_pass_kernel cutoff len h else low_pass_kernel cutoff len h).
Proof. exact lp_hp_correct. Qed.
Print Assumptions c07_lp_hp.

(** C07: whenever a kernel is returned it is symmetric, has an odd length, and a gain of one or zero at frequency zero. *)
Theorem c07_gain_symmetry :
  forall (junk : nat -> list R) (cutoff transition : R) (is_high_pass : bool) (h : list R), (forall n, length (junk n) = n) ->
  lp_hp_ir junk cutoff transition is_high_pass = Some h ->
  gain h = (if is_high_pass then 0 else 1) /\ symmetric h /\ Nat.odd (length h) = true /\ (1 < length h)%nat.
Proof. exact lp_hp_gain_symmetric. Qed.
Print Assumptions c07_gain_symmetry.

Example c07_instance : let junk := fun n => repeat 7 n in
  (forall n, length (junk n) = n) /\ 0 < 1 < 4 /\ kernel_length 1 5 /\ 4 / 1 <= 4294967295 /\ (forall raw, raw_kernel (1 / 4) 5 raw -> gain raw <> 0) /\
  exists h, lp_hp_ir junk (1 / 4) 1 false = Some h /\ length h = 5%nat.
Proof.
  intros junk. assert (hj : forall n, length (junk n) = n) by (intros; apply repeat_length).
  splits; auto; try lra; [apply demo_length|apply demo_gain|].
  destruct (lp_hp_correct junk (1 / 4) 1 false 5 hj ltac:(lra) demo_length ltac:(lra) demo_gain) as (h & e & hl & _). eauto.
Qed.

(** C07: the length is the least odd number not below 4 / transition, if 4 / transition is a 32 bit number *)
Theorem c07_length :
  forall transition : R, 0 < transition -> 4 / transition <= 4294967295 ->
  exists len, ir_length transition = Some len /\ kernel_length transition len /\ (Z.of_nat len < two32)%Z /\ (transition < 4 -> (1 < len)%nat).
Proof. exact ir_length_correct. Qed.
Print Assumptions c07_length.
Example c07_length_instance : 0 < 1 /\ 4 / 1 <= 4294967295 /\ kernel_length 1 5.
Proof. splits; try lra. apply demo_length. Qed.

(** C07: a sum of zero is divided by, the kernel is not a number. The same holds for transitions of 4 or more, for which the length is one. *)
Theorem c07_zero_sum_undefined :
  forall (junk : nat -> list R) (cutoff transition : R) (is_high_pass : bool) (len : nat) (raw : list R), (forall n, length (junk n) = n) ->
  0 < transition < 4 -> kernel_length transition len -> 4 / transition <= 4294967295 ->
  raw_kernel cutoff len raw -> gain raw = 0 -> lp_hp_ir junk cutoff transition is_high_pass = None.
Proof. exact lp_hp_zero_gain. Qed.
Print Assumptions c07_zero_sum_undefined.
Theorem c07_long_transition_refuted :
  forall (junk : nat -> list R) (cutoff transition : R) (is_high_pass : bool), 4 <= transition -> lp_hp_ir junk cutoff transition is_high_pass = None.
Proof. exact long_transition. Qed.
Print Assumptions c07_long_transition_refuted.

(** C07: band reject with both cutoffs inside of the range: the center aligned sum of a low pass for the lower cutoff and a high pass for the
    higher cutoff. *)
Theorem c07_band_reject :
  forall (junk : nat -> list R) (cutoff_l cutoff_h transition_l transition_h : R) (lp hp : list R), (forall n, length (junk n) = n) ->
  0 < cutoff_l -> cutoff_h < 1 / 2 ->
  lp_hp_ir junk cutoff_l transition_l false = Some lp -> lp_hp_ir junk cutoff_h transition_h true = Some hp ->
  exists h, bp_br_ir junk cutoff_l cutoff_h transition_l transition_h true = Some h /\
    (if (length hp <? length lp)%nat then centered_sum lp hp h else centered_sum hp lp h) /\
    gain h = 1 /\ symmetric h /\ Nat.odd (length h) = true /\ length h = Nat.max (length lp) (length hp).
Proof. exact band_reject_inside. Qed.
Print Assumptions c07_band_reject.

(** C07: band pass with both cutoffs inside: the response at every frequency is the product of those of a high pass for the lower cutoff and
    a low pass for the higher cutoff. *)
Theorem c07_band_pass :
  forall (junk : nat -> list R) (cutoff_l cutoff_h transition_l transition_h : R) (lp hp : list R), (forall n, length (junk n) = n) ->
  0 < cutoff_l -> cutoff_h < 1 / 2 ->
  lp_hp_ir junk cutoff_l transition_l true = Some hp -> lp_hp_ir junk cutoff_h transition_h false = Some lp ->
  exists h, bp_br_ir junk cutoff_l cutoff_h transition_l transition_h false = Some h /\
    (forall w, response_re h w = response_re lp w * response_re hp w - response_im lp w * response_im hp w /\
               response_im h w = response_re lp w * response_im hp w + response_im lp w * response_re hp w) /\
    gain h = 0 /\ symmetric h /\ Nat.odd (length h) = true /\ length h = (length lp + length hp - 1)%nat.
Proof. exact band_pass_inside. Qed.
Print Assumptions c07_band_pass.

Example c07_band_instance : let junk := fun n => repeat 7 n in
  (forall n, length (junk n) = n) /\ 0 < 1 / 4 /\ 1 / 4 < 1 / 2 /\ exists lp hp, lp_hp_ir junk (1 / 4) 1 false = Some lp /\ lp_hp_ir junk (1 / 4) 1 true = Some hp.
Proof.
  intros junk. assert (hj : forall n, length (junk n) = n) by (intros; apply repeat_length).
  splits; auto; try lra.
  destruct (lp_hp_correct junk (1 / 4) 1 false 5 hj ltac:(lra) demo_length ltac:(lra) demo_gain) as (lp & e & _).
  destruct (lp_hp_correct junk (1 / 4) 1 true 5 hj ltac:(lra) demo_length ltac:(lra) demo_gain) as (hp & e2 & _). eauto.
Qed.

(** C07: cutoffs outside of the range. *)
Theorem c07_dispatch :
  forall (junk : nat -> list R) (cl ch tl th : R),
  (cl <= 0 -> 1 / 2 <= ch -> bp_br_ir junk cl ch tl th true = Some [0] /\ bp_br_ir junk cl ch tl th false = Some [1]) /\
  (cl <= 0 -> ch < 1 / 2 -> bp_br_ir junk cl ch tl th true = lp_hp_ir junk ch th true /\ bp_br_ir junk cl ch tl th false = lp_hp_ir junk ch th false) /\
  (0 < cl -> 1 / 2 <= ch -> bp_br_ir junk cl ch tl th true = lp_hp_ir junk cl tl false /\ bp_br_ir junk cl ch tl th false = lp_hp_ir junk cl tl true).
Proof. exact band_outside. Qed.
Print Assumptions c07_dispatch.
Example c07_dispatch_instance : (-1 <= 0) /\ (1 / 2 <= 1) /\ (1 / 4 < 1 / 2) /\ (0 < 1 / 4). Proof. splits; lra. Qed.

(** C08: spectral inversion gives an impulse at the center minus the kernel, twice it gives the kernel back. *)
Theorem c08_inversion :
  forall a : list R, (0 < length a)%nat -> (Z.of_nat (length a) < two32)%Z ->
  exists b, spectral_inversion a (length a) = Some b /\ length b = length a /\ (forall i, (i < length a)%nat -> nth i b 0 = impulse (length a) i - nth i a 0) /\
    gain b = 1 - gain a /\ spectral_inversion b (length b) = Some a.
Proof.
  intros a h hm. destruct (inversion_correct a h hm) as (b & e & h1 & h2). exists b. splits; auto; [exact (inversion_gain a b h hm e)|exact (inversion_involutive a b h hm e)].
Qed.
Print Assumptions c08_inversion.

(** C08: the frequency response is flipped top to bottom at every frequency: the response relative to the center becomes one minus it, and for
    symmetric kernels that is the whole response. *)
Theorem c08_inversion_response :
  forall (a b : list R) (w : R), Nat.odd (length a) = true -> (Z.of_nat (length a) < two32)%Z -> spectral_inversion a (length a) = Some b ->
  amplitude b w = 1 - amplitude a w.
Proof. exact inversion_amplitude. Qed.
Print Assumptions c08_inversion_response.
Theorem c08_symmetric_response :
  forall (h : list R) (w : R), symmetric h -> let c := (INR (length h) - 1) / 2 in
  response_re h w = amplitude h w * cos (c * w) /\ response_im h w = - (amplitude h w * sin (c * w)).
Proof. exact amplitude_response. Qed.
Print Assumptions c08_symmetric_response.

(** C08: spectral reversal negates the odd indexes of kernels with odd length; twice it gives the kernel back; the response at each frequency is
    that of the kernel half a turn further, so the gain at zero and at the highest frequency are exchanged. *)
Theorem c08_reversal :
  forall a : list R, Nat.odd (length a) = true ->
  exists b, spectral_reversal a (length a) = Some b /\ length b = length a /\ (forall i, (i < length a)%nat -> nth i b 0 = (-1) ^ i * nth i a 0) /\
    spectral_reversal b (length b) = Some a /\ gain b = gain_highest a /\ gain_highest b = gain a /\
    forall w, response_re b w = response_re a (w + PI) /\ response_im b w = response_im a (w + PI).
Proof.
  intros a ho. destruct (reversal_odd a ho) as (b & e & h1 & h2). destruct (reversal_gains a b ho e) as (h3 & h4 & h5). exists b. splits; auto. intros w. exact (reversal_responses a b w ho e).
Qed.
Print Assumptions c08_reversal.

(** C08: for even lengths it is the even indexes that are negated *)
Theorem c08_reversal_any_length :
  forall a : list R, exists b, spectral_reversal a (length a) = Some b /\ length b = length a /\
    forall i, (i < length a)%nat -> nth i b 0 = if Nat.even (length a - i) then - nth i a 0 else nth i a 0.
Proof. exact reversal_correct. Qed.
Print Assumptions c08_reversal_any_length.

Example c08_instance : let a := [1; 2; 1] in Nat.odd (length a) = true /\ (0 < length a)%nat /\ (Z.of_nat (length a) < two32)%Z /\ symmetric a /\
  gain a = 4 /\ gain_highest a = 0 /\ exists b, spectral_inversion a 3 = Some b /\ nth 1 b 0 = -1.
Proof.
  cbn zeta. splits; try reflexivity; try (cbn; lia).
  - intros i hi. cbn in hi. destruct i as [|[|[|]]]; cbn; try lra; lia.
  - unfold gain. cbn. lra.
  - unfold gain_highest. cbn. lra.
  - destruct (inversion_correct [1; 2; 1]) as (b & e & h1 & h2); [cbn; lia|cbn; unfold two32; lia|]. exists b. split; [exact e|]. rewrite h2 by (cbn; lia). unfold impulse. cbn. lra.
Qed.

(** C09: every output is the mean of the inputs around it, continued as documented, if [next] is given or the window does not reach beyond the
    end. Missing from the full statement: the end without [next], see [c09_end_refuted]. *)
Theorem c09_moving_average_partial :
  forall (input : list Q) (prev next : option (list Q)) (radius : nat) (out : list Q),
  (2 * radius + 1 <= length input)%nat -> (Z.of_nat (length input) < two32)%Z -> (length input <= length out)%nat ->
  (forall p, prev = Some p -> length p = length input) -> (forall p, next = Some p -> (radius <= length p)%nat) ->
  exists out', moving_average input prev next radius out = Some out' /\ length out' = length out /\
    (forall i, (length input <= i)%nat -> nth_error out' i = nth_error out i) /\
    forall i, (i < length input)%nat -> (next <> None \/ (i + radius < length input)%nat) ->
      exists x, nth_error out' i = Some x /\ (x == centered_mean (extended input prev next) radius i)%Q.
Proof. exact moving_average_correct. Qed.
Print Assumptions c09_moving_average_partial.

(** C09: what is computed in all cases: the means of the signal that is continued after its end with [next] or with the negated start. *)
Theorem c09_computed :
  forall (input : list Q) (prev next : option (list Q)) (radius : nat) (out : list Q),
  (2 * radius + 1 <= length input)%nat -> (Z.of_nat (length input) < two32)%Z -> (length input <= length out)%nat ->
  (forall p, prev = Some p -> length p = length input) -> (forall p, next = Some p -> (radius <= length p)%nat) ->
  exists out', moving_average input prev next radius out = Some out' /\ length out' = length out /\
    forall i, (i < length input)%nat -> exists x, nth_error out' i = Some x /\ (x == centered_mean (used input prev next) radius i)%Q.
Proof. exact moving_average_computed. Qed.
Print Assumptions c09_computed.
(** C09 (refuted): without [next] the values at the end are not continued with the mirrored end but with the negated start. The last output is as documented exactly if
    the [radius] samples after the first and those before the last have the same sum. *)
Theorem c09_end_refuted :
  forall (input : list Q) (prev : option (list Q)) (radius : nat) (out : list Q),
  (2 * radius + 1 <= length input)%nat -> (Z.of_nat (length input) < two32)%Z -> (length input <= length out)%nat -> (forall p, prev = Some p -> length p = length input) ->
  exists out' x, moving_average input prev None radius out = Some out' /\ nth_error out' (length input - 1) = Some x /\
    ((x == centered_mean (extended input prev None) radius (length input - 1))%Q <-> (qsumf (sample input) 1 radius == qsumf (sample input) (Z.of_nat (length input) - 1 - Z.of_nat radius) radius)%Q).
Proof. exact last_output. Qed.
Print Assumptions c09_end_refuted.
Example c09_end_instance :
  let input := [1; 2; 4; 8; 16]%Q in
  exists out', moving_average input None None 1 [0; 0; 0; 0; 0]%Q = Some out' /\
    Forall2 Qeq out' [1 # 3; 7 # 3; 14 # 3; 28 # 3; 22 # 3]%Q /\ (centered_mean (extended input None None) 1 4 == 16 # 3)%Q /\
    ~ (qsumf (sample input) 1 1 == qsumf (sample input) (5 - 1 - 1) 1)%Q.
Proof. cbn zeta. eexists. split; [vm_compute; reflexivity|]. split; [repeat constructor|]. split; [reflexivity|]. vm_compute. discriminate. Qed.

Example c09_instance : let input := [1; 2; 4; 8; 16]%Q in
  exists out', moving_average input (Some [9; 9; 9; 9; 3]%Q) (Some [5]%Q) 1 [0; 0; 0; 0; 0]%Q = Some out' /\
    Forall2 Qeq out' [6 # 3; 7 # 3; 14 # 3; 28 # 3; 29 # 3]%Q.
Proof. cbn zeta. eexists. split; [vm_compute; reflexivity|]. repeat constructor. Qed.
