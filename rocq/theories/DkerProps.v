(** C118: filter kernels and the sine table in double precision *)
From Coq Require Import ZArith Reals List Lia Lra.
From Flocq Require Import Core BinarySingleNaN.
From Verif Require Import Base DblModel DblSpec KerSpec DfftModel DkerModel DkerSpec DblProofs Dbl2Proofs Dker2Proofs Dker3Proofs.
Import ListNotations.
Open Scope R_scope.

(** The kernel that is computed with doubles differs in each sample by at most four times the bound of DkerSpec.v from the low pass or high pass kernel of real numbers, and
    the sum of its samples is one, or zero for a high pass, up to 30 n^2 roundings. Cutoffs are in the documented range of 0 to 1/2. *)
Theorem c118_kernel :
  forall d fcos fsin junk (is_high_pass : bool) cutoff transition len,
  libm_near d fcos fsin -> 0 <= d <= / 1000000 -> (forall n, length (junk n) = n) ->
  ir_length64 transition = Some len -> (1 < len)%nat -> kernel_error d len <= 1 / 2 -> finite cutoff -> 0 <= real cutoff <= 1 / 2 ->
  exists h kernel, lp_hp_ir64 fcos fsin junk cutoff transition is_high_pass = Some h /\
    (if is_high_pass then high_pass_kernel (real cutoff) len kernel else low_pass_kernel (real cutoff) len kernel) /\
    near_kernel (4 * kernel_error d len) h kernel /\
    Rabs (gain64 h - (if is_high_pass then 0 else 1)) <= 30 * INR len * INR len * unit_roundoff.
Proof. intros d fcos fsin junk hp c t len hl hd hj. exact (kernel_near d fcos fsin hl hd junk hj hp c t len). Qed.
Print Assumptions c118_kernel.
(** The length is the least odd number that is not below 4 / transition, where the quotient has been rounded once; it is greater than one for transitions up to 2. *)
Theorem c118_length :
  forall transition, finite transition -> 0 < real transition -> 4 / real transition <= 4294967295 ->
  exists quotient len, Rabs (quotient - 4 / real transition) <= unit_roundoff * (4 / real transition) /\ least_odd quotient len /\ ir_length64 transition = Some len /\
    (real transition <= 2 -> (1 < len)%nat).
Proof. exact length_ok. Qed.
Print Assumptions c118_length.
(** Each sample of a sine table of even size has an error of at most that of the library and 16 roundings. *)
Theorem c118_sine_table :
  forall d fcos fsin k out, libm_near d fcos fsin -> (0 < k)%nat -> (Z.of_nat (2 * k) < 2 ^ 32)%Z -> length out = (2 * k)%nat ->
  exists table, sine_period64 fsin (2 * k) out = Some table /\ length table = (2 * k)%nat /\
    forall i, (i < 2 * k)%nat -> finite (nth i table fzero) /\ Rabs (real (nth i table fzero) - sin (2 * PI * INR i / INR (2 * k))) <= d + 16 * unit_roundoff.
Proof. exact table_near. Qed.
Print Assumptions c118_sine_table.
(** a cosine and a sine with the assumed accuracy exist; a kernel of 33 samples for the cutoff 1/4 and the transition 1/8 *)
Example c118_instance :
  libm_near (/ 1000000) cos40 sin40 /\ ir_length64 (fmake 1 (-3)) = Some 33%nat /\ kernel_error (/ 1000000) 33 <= 1 / 5000 /\ real (fmake 1 (-2)) = 1 / 4 /\
  exists h kernel, lp_hp_ir64 cos40 sin40 (repeat fzero) (fmake 1 (-2)) (fmake 1 (-3)) true = Some h /\ high_pass_kernel (1 / 4) 33 kernel /\ near_kernel (4 * kernel_error (/ 1000000) 33) h kernel.
Proof.
  destruct (fmake_exact 1 (-2)) as [f e]; [reflexivity|lia|]. change (B (-2)) with (/ 4) in e. assert (e' : real (fmake 1 (-2)) = 1 / 4) by (rewrite e; lra).
  assert (hl : ir_length64 (fmake 1 (-3)) = Some 33%nat) by (vm_compute; reflexivity).
  assert (he : kernel_error (/ 1000000) 33 <= 1 / 5000). { unfold kernel_error. replace (INR 33) with 33 by (rewrite INR_IZR_INZ; reflexivity). pose proof (u_bound 1000000000000 ltac:(lia) ltac:(intro; discriminate)). lra. }
  split; [exact libm40|]. split; [exact hl|]. split; [exact he|]. split; [exact e'|].
  destruct (c118_kernel (/ 1000000) cos40 sin40 (repeat fzero) true (fmake 1 (-2)) (fmake 1 (-3)) 33) as (h & k & a & b & c & _).
  - exact libm40.
  - lra.
  - intros n. apply repeat_length.
  - exact hl.
  - lia.
  - lra.
  - exact f.
  - rewrite e'. lra.
  - exists h, k. rewrite e' in b. auto.
Qed.
