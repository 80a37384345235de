(** Property C112 *)
From Coq Require Import ZArith Reals List Lia Lra.
From Flocq Require Import Core BinarySingleNaN.
From Verif Require Import Base DblModel DblSpec Dbl2Proofs DfileModel DfileSpec DfileProofs FileModel FileSpec FileUseSpec.
Import ListNotations.
Open Scope R_scope.

(** C112: a finite sample that is not too large for a float comes back as the nearest number that a float can be, with its sign. *)
Theorem c112_nearest_partial : forall x : f64, finite x -> Rabs (real x) < bpow radix2 128 - bpow radix2 103 ->
  finite (reread x) /\ nearest_single (real x) (real (reread x)) /\ Bsign (reread x) = Bsign x.
Proof. exact reread_nearest. Qed.
Print Assumptions c112_nearest_partial.
(** C112: the error is at most 2 ^ -24 of the sample, or 2 ^ -150 for tiny samples. *)
Theorem c112_error_partial : forall x : f64, finite x -> Rabs (real x) < bpow radix2 128 - bpow radix2 103 ->
  Rabs (real (reread x) - real x) <= bpow radix2 (-24) * Rabs (real x) + bpow radix2 (-150).
Proof. exact reread_error. Qed.
Print Assumptions c112_error_partial.
(** C112: samples between -1 and 1 stay between -1 and 1 and have at most an error of 2 ^ -25. *)
Theorem c112_unit_range : forall x : f64, finite x -> Rabs (real x) <= 1 ->
  finite (reread x) /\ Rabs (real (reread x)) <= 1 /\ Rabs (real (reread x) - real x) <= bpow radix2 (-25).
Proof. exact reread_unit. Qed.
Print Assumptions c112_unit_range.
(** C112: a sample that a float can be is not changed. *)
Theorem c112_exact : forall x : f64, finite x -> single (real x) -> Rabs (real x) <= single_max -> reread x = x.
Proof. exact reread_exact. Qed.
Print Assumptions c112_exact.
(** C112: writing and reading a second time changes nothing more, for all doubles. *)
Theorem c112_again : forall x : f64, reread (reread x) = reread x.
Proof. exact reread_again. Qed.
Print Assumptions c112_again.
(** C112: the order of samples is kept, for all doubles. *)
Theorem c112_order : forall x y : f64, fle x y = true -> fle (reread x) (reread y) = true.
Proof. exact reread_order. Qed.
Print Assumptions c112_order.
(** C112 refuted for large samples: all finite samples from 2 ^ 128 - 2 ^ 103 come back as infinite. *)
Theorem c112_large_refuted : forall x : f64, finite x -> bpow radix2 128 - bpow radix2 103 <= Rabs (real x) -> reread x = B754_infinity (Bsign x).
Proof. exact reread_large. Qed.
Print Assumptions c112_large_refuted.
(** C112: with all of this, what is read from a written file is [reread] of the written samples, in order. *)
Theorem c112_file_partial :
  forall (errno : Z) (header : list Z) (junk : nat -> list Z) (cc : nat) (rate : Z) (blocks : list (list (list f64) * nat)) (frames : list (list (list f64)))
    (before : file) (reads : list (nat * list (list f64))),
  length header = 40%nat -> (forall k, length (junk k) = k) -> (0 < cc)%nat ->
  Forall2 (fun b fr => (0 < snd b)%nat /\ frames_of cc (fst b) (snd b) fr) blocks frames ->
  (36 + Z.of_nat (length (data_bytes narrow32 (concat frames))) < 2 ^ 32)%Z ->
  f_channels before = cc -> Forall (read_ok f64 cc) reads ->
  exists f0 f1 f2 results, open_write true errno None header cc rate = Some (status_success, Some f0) /\ write_all f64 narrow32 junk f0 blocks = Some (status_success, f1) /\
    open_read (Some (close_write None None f1)) before = Some (status_success, f2) /\
    read_all f64 widen32 f2 reads = Some results /\ reads_expected f64 reread cc (concat frames) reads results.
Proof. exact file_samples. Qed.
Print Assumptions c112_file_partial.

(** 0.1 becomes the float 0x3dcccccd; 2 ^ 127 and the smallest normal float stay; 2 ^ 128 and 1e300 become infinite *)
Definition tenth64 : f64 := fdiv (f_of_Z 1) (f_of_Z 10).
Lemma tenth_ok : finite tenth64 /\ Rabs (real tenth64) <= 1.
Proof.
  assert (e : B2SF tenth64 = SpecFloat.S754_finite false 7205759403792794 (-56)) by (vm_compute; reflexivity). unfold finite, real.
  rewrite <- is_finite_SF_B2SF, <- SF2R_B2SF, e. split; [reflexivity|]. cbn [SF2R cond_Zopp]. rewrite Rabs_pos_eq by (apply F2R_ge_0; cbn; lia).
  unfold F2R. cbn [Fnum Fexp]. apply (Rmult_le_reg_r (bpow radix2 56)); [apply bpow_gt_0|]. rewrite Rmult_assoc, <- bpow_plus. change (bpow radix2 (-56 + 56)) with 1. rewrite Rmult_1_l, Rmult_1_r. apply (IZR_le _ (2 ^ 56)). lia.
Qed.
Example c112_case :
  narrow32 tenth64 = 1036831949%Z /\ B2SF (reread tenth64) = SpecFloat.S754_finite false 7205759511166976 (-56) /\ (* 0.1 *)
  (finite (reread tenth64) /\ Rabs (real (reread tenth64)) <= 1 /\ Rabs (real (reread tenth64) - real tenth64) <= bpow radix2 (-25)) /\
  reread (fmake 1 127) = fmake 1 127 /\
  narrow32 (fmake 1 (-126)) = (2 ^ 23)%Z /\
  reread (fmake 1 128) = B754_infinity false /\ B2SF (reread (fmake (-1) 900)) = SpecFloat.S754_infinity true /\
  narrow32 B754_nan = 2143289344%Z /\ narrow32 (fmake 1 (-150)) = 0%Z /\ narrow32 (fmake 3 (-150)) = 2%Z /\ (* ties to even *)
  fle tenth64 (f_of_Z 1) = true.
Proof.
  destruct tenth_ok as [t1 t2]. split; [vm_compute; reflexivity|]. split; [vm_compute; reflexivity|]. split; [exact (c112_unit_range tenth64 t1 t2)|].
  split.
  { destruct (fmake_exact 1 127) as [f e]; [lia|lia|]. apply c112_exact; [exact f|rewrite e; exists 1%Z, 127%Z; splits; [lia|lia|reflexivity]|].
    rewrite e, Rmult_1_l, Rabs_pos_eq by apply bpow_ge_0. unfold single_max. pose proof (bpow_le radix2 104 127 ltac:(lia)). change 128%Z with (1 + 127)%Z. rewrite bpow_plus. change (bpow radix2 1) with 2. lra. }
  split; [vm_compute; reflexivity|]. split.
  { destruct (fmake_exact 1 128) as [f e]; [lia|lia|]. replace false with (Bsign (fmake 1 128)) by (vm_compute; reflexivity). apply c112_large_refuted; [exact f|].
    rewrite e, Rmult_1_l, Rabs_pos_eq by apply bpow_ge_0. pose proof (bpow_gt_0 radix2 103). lra. }
  splits; vm_compute; reflexivity.
Qed.
Definition float_reads : list (nat * list (list f64)) := [(2%nat, [[fzero; fzero]; [fzero; fzero]])].
Example c112_file_case :
  Forall2 (fun (b : list (list f64) * nat) fr => (0 < snd b)%nat /\ frames_of 2 (fst b) (snd b) fr) [([[tenth64]; [f_of_Z 1]], 1%nat)] [[[tenth64; f_of_Z 1]]] /\
  Forall (read_ok f64 2) float_reads /\
  data_bytes narrow32 [[tenth64; f_of_Z 1]] = [205; 204; 204; 61; 0; 0; 128; 63]%Z.
Proof.
  splits.
  - apply Forall2_cons; [|apply Forall2_nil]. cbn [fst snd]. split; [lia|]. split; [reflexivity|]. intros [|i] hi; [|lia]. eexists. split; [reflexivity|]. split; [reflexivity|].
    intros [|[|j]] hj; try lia; do 2 eexists; repeat split; reflexivity.
  - apply Forall_cons; [|apply Forall_nil]. split; [cbn; lia|]. split; [|reflexivity]. intros [|[|j]] c hj e; try lia; injection e as <-; cbn; lia.
  - vm_compute. reflexivity.
Qed.
