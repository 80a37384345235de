(** C119: band kernels and filtered streams in double precision *)
From Coq Require Import ZArith Reals List Bool Lia Lra SpecFloat.
From Flocq Require Import Core BinarySingleNaN.
From Verif Require Import Base DblModel DblSpec ConvolveSpec KerSpec FilterModel DkerModel DkerSpec SincSpec DbandModel DbandSpec DblProofs Dbl2Proofs Dker2Proofs Dker3Proofs Dband2Proofs Dband3Proofs.
Import ListNotations.
Open Scope R_scope.

(** The band reject kernel: the sum of a low pass and a high pass with their centers aligned, with the errors of both *)
Theorem c119_band_reject :
  forall d fcos fsin junk cutoff_l cutoff_h transition_l transition_h len_l len_h,
  libm_near d fcos fsin -> 0 <= d <= / 1000000 -> (forall n, length (junk n) = n) ->
  ir_length64 transition_l = Some len_l -> ir_length64 transition_h = Some len_h -> (1 < len_l)%nat -> (1 < len_h)%nat -> kernel_error d len_l <= 1 / 2 -> kernel_error d len_h <= 1 / 2 ->
  finite cutoff_l -> finite cutoff_h -> 0 < real cutoff_l <= 1 / 2 -> 0 <= real cutoff_h < 1 / 2 ->
  exists h kernel, bp_br_ir64 fcos fsin junk cutoff_l cutoff_h transition_l transition_h true = Some h /\ band_reject_kernel (real cutoff_l) (real cutoff_h) len_l len_h kernel /\
    near_kernel (reject_error d len_l len_h) h kernel /\ length h = Nat.max len_l len_h.
Proof.
  intros d fcos fsin junk cl ch tl th nl nh a b c e f g h i j k l m n. destruct (reject_near d fcos fsin a b junk c cl ch tl th nl nh e f g h i j k l m n) as (o & p & q & r & s & t & _). exists o, p. auto.
Qed.
Print Assumptions c119_band_reject.
(** The band pass kernel: the convolution of a low pass and a high pass *)
Theorem c119_band_pass :
  forall d fcos fsin junk cutoff_l cutoff_h transition_l transition_h len_l len_h,
  libm_near d fcos fsin -> 0 <= d <= / 1000000 -> (forall n, length (junk n) = n) ->
  ir_length64 transition_l = Some len_l -> ir_length64 transition_h = Some len_h -> (1 < len_l)%nat -> (1 < len_h)%nat -> kernel_error d len_l <= 1 / 2 -> kernel_error d len_h <= 1 / 2 ->
  finite cutoff_l -> finite cutoff_h -> 0 < real cutoff_l <= 1 / 2 -> 0 <= real cutoff_h < 1 / 2 ->
  exists h kernel, bp_br_ir64 fcos fsin junk cutoff_l cutoff_h transition_l transition_h false = Some h /\ band_pass_kernel (real cutoff_l) (real cutoff_h) len_l len_h kernel /\
    near_kernel (pass_error d len_l len_h) h kernel /\ length h = (len_l + len_h - 1)%nat.
Proof.
  intros d fcos fsin junk cl ch tl th nl nh a b c e f g h i j k l m n. destruct (pass_near d fcos fsin a b junk c cl ch tl th nl nh e f g h i j k l m n) as (o & p & q & r & s & t & _). exists o, p. auto.
Qed.
Print Assumptions c119_band_pass.
(** With a cutoff outside of the range the band filters are a single low pass or high pass, or one sample: zero for band reject and one for band pass *)
Theorem c119_band_outside :
  forall fcos fsin junk cutoff_l cutoff_h transition_l transition_h (is_reject : bool), finite cutoff_l -> finite cutoff_h ->
  (real cutoff_l <= 0 -> 1 / 2 <= real cutoff_h -> bp_br_ir64 fcos fsin junk cutoff_l cutoff_h transition_l transition_h is_reject = Some [if is_reject then fzero else f_of_Z 1]) /\
  (real cutoff_l <= 0 -> real cutoff_h < 1 / 2 -> bp_br_ir64 fcos fsin junk cutoff_l cutoff_h transition_l transition_h is_reject = lp_hp_ir64 fcos fsin junk cutoff_h transition_h is_reject) /\
  (0 < real cutoff_l -> 1 / 2 <= real cutoff_h -> bp_br_ir64 fcos fsin junk cutoff_l cutoff_h transition_l transition_h is_reject = lp_hp_ir64 fcos fsin junk cutoff_l transition_l (negb is_reject)).
Proof. exact band_outside. Qed.
Print Assumptions c119_band_outside.
(** A stream of samples of at most [m] that is filtered in any division into calls is the convolution with the kernel of real numbers, up to the stated error: no sample is an
    infinity or not a number, and the division into calls adds nothing to the error *)
Theorem c119_lp_hp_stream :
  forall d fcos fsin junk enc dec junkb cutoff transition (is_high_pass : Z) len m inputs h0,
  libm_near d fcos fsin -> 0 <= d <= / 1000000 -> (forall n, length (junk n) = n) -> encoding f64 enc dec -> (forall n, length (junkb n) = n) ->
  ir_length64 transition = Some len -> (1 < len)%nat -> kernel_error d len <= 1 / 2 -> finite cutoff -> 0 <= real cutoff <= 1 / 2 ->
  Forall (fun x => finite x /\ Rabs (real x) <= m) (concat inputs) -> 0 <= m <= IZR (2 ^ 900) ->
  exists kernel outs st h', (if (is_high_pass =? 0)%Z then low_pass_kernel (real cutoff) len kernel else high_pass_kernel (real cutoff) len kernel) /\
    run_inputs junk (fun input => windowed_sinc_lp_hp64 fcos fsin junk enc dec junkb input cutoff transition is_high_pass) inputs None h0 = Some (outs, st, h') /\
    Forall (fun r => fst r = Ok tt) outs /\ filtered (filter_error m (4 * kernel_error d len) 4 len) (concat inputs) kernel (concat (map snd outs)).
Proof. intros d fcos fsin junk enc dec junkb c t b len m inputs h0 a1 a2 a3 a4 a5. exact (lp_hp_stream d fcos fsin a1 a2 junk a3 enc dec a4 junkb a5 c t b len m inputs h0). Qed.
Print Assumptions c119_lp_hp_stream.
Theorem c119_bp_br_stream :
  forall d fcos fsin junk enc dec junkb cutoff_l cutoff_h transition_l transition_h (is_reject : Z) len_l len_h m inputs h0,
  libm_near d fcos fsin -> 0 <= d <= / 1000000 -> (forall n, length (junk n) = n) -> encoding f64 enc dec -> (forall n, length (junkb n) = n) ->
  ir_length64 transition_l = Some len_l -> ir_length64 transition_h = Some len_h -> (1 < len_l)%nat -> (1 < len_h)%nat -> kernel_error d len_l <= 1 / 2 -> kernel_error d len_h <= 1 / 2 ->
  finite cutoff_l -> finite cutoff_h -> 0 < real cutoff_l <= 1 / 2 -> 0 <= real cutoff_h < 1 / 2 ->
  Forall (fun x => finite x /\ Rabs (real x) <= m) (concat inputs) -> 0 <= m <= IZR (2 ^ 900) ->
  exists kernel outs st h', (if (is_reject =? 0)%Z then band_pass_kernel (real cutoff_l) (real cutoff_h) len_l len_h kernel else band_reject_kernel (real cutoff_l) (real cutoff_h) len_l len_h kernel) /\
    run_inputs junk (fun input => windowed_sinc_bp_br64 fcos fsin junk enc dec junkb input cutoff_l cutoff_h transition_l transition_h is_reject) inputs None h0 = Some (outs, st, h') /\
    Forall (fun r => fst r = Ok tt) outs /\
    filtered (if (is_reject =? 0)%Z then filter_error m (pass_error d len_l len_h) (15 * INR (Nat.min len_l len_h)) (len_l + len_h - 1) else filter_error m (reject_error d len_l len_h) 8 (Nat.max len_l len_h))
      (concat inputs) kernel (concat (map snd outs)).
Proof.
  intros d fcos fsin junk enc dec junkb cl ch tl th b nl nh m inputs h0 a1 a2 a3 a4 a5 b1 b2 b3 b4 b5 b6 b7 b8 b9 b0.
  exact (bp_br_stream d fcos fsin a1 a2 junk a3 enc dec a4 junkb a5 cl ch tl th nl nh b1 b2 b3 b4 b5 b6 b7 b8 b9 b0 b m inputs h0).
Qed.
Print Assumptions c119_bp_br_stream.

(** an example of an encoding, and all assumptions for kernels of 33 and 65 samples with cutoffs of 1/8 and 1/4, and a stream of two inputs *)
Definition demo_enc (x : f64) : list Z :=
  match B2SF x with
  | S754_zero s => [0; Z.b2z s; 0; 0; 0; 0; 0; 0]
  | S754_infinity s => [1; Z.b2z s; 0; 0; 0; 0; 0; 0]
  | S754_nan => [2; 0; 0; 0; 0; 0; 0; 0]
  | S754_finite s m e => [3; Z.b2z s; Zpos m; e; 0; 0; 0; 0]
  end%Z.
Definition demo_dec (l : list Z) : f64 :=
  let k := nth 0 l 0%Z in let s := (nth 1 l 0 =? 1)%Z in
  let x := if (k =? 0)%Z then S754_zero s else if (k =? 1)%Z then S754_infinity s else if (k =? 2)%Z then S754_nan else S754_finite s (Z.to_pos (nth 2 l 0%Z)) (nth 3 l 0%Z) in
  match bool_dec (valid_binary 53 1024 x) true with left h => SF2B x h | right _ => B754_nan end.
Definition demo_heap : heap f64 := {| cells := []; attempts := 0 |}.
Lemma demo_code : encoding f64 demo_enc demo_dec.
Proof.
  intros x. split; [unfold demo_enc; destruct (B2SF x); reflexivity|]. apply B2SF_inj. unfold demo_enc, demo_dec. pose proof (valid_binary_B2SF 53 1024 x) as v.
  destruct (B2SF x) as [s|s| |s m e]; try destruct s; cbn -[valid_binary SF2B]; destruct (bool_dec _ true) as [h|h]; try (rewrite B2SF_SF2B; reflexivity); contradiction.
Qed.
Example c119_instance :
  encoding f64 demo_enc demo_dec /\ libm_near (/ 1000000) cos40 sin40 /\ ir_length64 (fmake 1 (-3)) = Some 33%nat /\ ir_length64 (fmake 1 (-4)) = Some 65%nat /\
  kernel_error (/ 1000000) 33 <= 1 / 2 /\ kernel_error (/ 1000000) 65 <= 1 / 2 /\ finite (fmake 1 (-3)) /\ real (fmake 1 (-3)) = 1 / 8 /\ finite (fmake 1 (-2)) /\ real (fmake 1 (-2)) = 1 / 4 /\
  Forall (fun x => finite x /\ Rabs (real x) <= 1) (concat [[f_of_Z 1; fhalf]; [fzero; f_of_Z (-1); fhalf]]) /\
  exists kernel outs st h', band_reject_kernel (1 / 8) (1 / 4) 33 65 kernel /\
    run_inputs (repeat fzero) (fun input => windowed_sinc_bp_br64 cos40 sin40 (repeat fzero) demo_enc demo_dec (repeat 0%Z) input (fmake 1 (-3)) (fmake 1 (-2)) (fmake 1 (-3)) (fmake 1 (-4)) 1)
      [[f_of_Z 1; fhalf]; [fzero; f_of_Z (-1); fhalf]] None demo_heap = Some (outs, st, h') /\
    filtered (filter_error 1 (reject_error (/ 1000000) 33 65) 8 65) [f_of_Z 1; fhalf; fzero; f_of_Z (-1); fhalf] kernel (concat (map snd outs)).
Proof.
  destruct (fmake_exact 1 (-2)) as [f2 e2]; [reflexivity|lia|]. change (B (-2)) with (/ 4) in e2. assert (e2' : real (fmake 1 (-2)) = 1 / 4) by (rewrite e2; lra).
  destruct (fmake_exact 1 (-3)) as [f3 e3]; [reflexivity|lia|]. change (B (-3)) with (/ 8) in e3. assert (e3' : real (fmake 1 (-3)) = 1 / 8) by (rewrite e3; lra).
  assert (l3 : ir_length64 (fmake 1 (-3)) = Some 33%nat) by (vm_compute; reflexivity). assert (l4 : ir_length64 (fmake 1 (-4)) = Some 65%nat) by (vm_compute; reflexivity).
  pose proof (u_bound 1000000000000 ltac:(lia) ltac:(intro; discriminate)) as hu.
  assert (he3 : kernel_error (/ 1000000) 33 <= 1 / 2) by (unfold kernel_error; replace (INR 33) with 33 by (rewrite INR_IZR_INZ; reflexivity); lra).
  assert (he4 : kernel_error (/ 1000000) 65 <= 1 / 2) by (unfold kernel_error; replace (INR 65) with 65 by (rewrite INR_IZR_INZ; reflexivity); lra).
  assert (hx : Forall (fun x => finite x /\ Rabs (real x) <= 1) (concat [[f_of_Z 1; fhalf]; [fzero; f_of_Z (-1); fhalf]])).
  { destruct (f_of_Z_exact 1) as [p1 q1]; [lia|]. destruct (f_of_Z_exact (-1)) as [p2 q2]; [lia|]. destruct fhalf_real as [p3 q3]. cbn [concat app].
    assert (q0 : real fzero = 0) by reflexivity. repeat match goal with |- Forall _ (_ :: _) => apply Forall_cons; [split; [first [assumption|reflexivity]|rewrite ?q0, ?q1, ?q2, ?q3; apply Rabs_le; lra]|] end. apply Forall_nil. }
  assert (hm : 0 <= 1 <= IZR (2 ^ 900)) by (split; [lra|apply IZR_le; intro; discriminate]).
  splits; auto; [exact demo_code|exact libm40|].
  destruct (c119_bp_br_stream (/ 1000000) cos40 sin40 (repeat fzero) demo_enc demo_dec (repeat 0%Z) (fmake 1 (-3)) (fmake 1 (-2)) (fmake 1 (-3)) (fmake 1 (-4)) 1 33 65 1
    [[f_of_Z 1; fhalf]; [fzero; f_of_Z (-1); fhalf]] demo_heap) as (k & outs & st & h' & b1 & b2 & _ & b4); auto; try lra; try lia.
  - exact libm40.
  - intros n. apply repeat_length.
  - exact demo_code.
  - intros n. apply repeat_length.
  - exists k, outs, st, h'. rewrite e2', e3' in b1. auto.
Qed.
