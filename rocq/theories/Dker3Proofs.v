(** The sine table with doubles, and a cosine and a sine with the assumed accuracy *)
From Coq Require Import ZArith Reals List Bool Lia Lra Psatz.
From Flocq Require Import Core BinarySingleNaN.
From Verif Require Import Base DblModel DblSpec DblProofs Dbl2Proofs DlineProofs KerSpec KerProofs PiProofs DfftModel DfftSpec DfftProofs DkerModel DkerSpec DkerProofs Dker2Proofs.
Import ListNotations.
Open Scope R_scope.

Lemma table_angle i k : (0 < k)%nat -> (Z.of_nat k < 2 ^ 32)%Z -> (i < 2 * k)%nat -> let a := fmul (f_of_nat i) (fdiv m_pi (f_of_nat k)) in finite a /\ Rabs (real a - PI * INR i / INR k) <= 16 * u /\ Rabs (real a) <= 8.
Proof.
  intros hk hk2 hi a. change (2 ^ 32)%Z with 4294967296%Z in hk2. destruct (f_of_nat_ok i) as [fi ei]; [change (2 ^ 53)%Z with 9007199254740992%Z; lia|]. destruct (f_of_nat_ok k) as [fk ek]; [change (2 ^ 53)%Z with 9007199254740992%Z; lia|].
  destruct m_pi_ok as [fp ep]. pose proof PI_range as hp. pose proof u_tiny as hu. pose proof u_pos as hu0. pose proof eta_u as he. pose proof eta_pos as he0. assert (ep' := Rabs_le_inv _ _ ep).
  assert (hk1 : 1 <= INR k) by (change 1 with (INR 1); apply le_INR; lia). assert (ik : 0 < / INR k <= 1) by (split; [apply Rinv_0_lt_compat; lra|]; rewrite <- Rinv_1; apply Rinv_le_contravar; lra).
  assert (hi8 : 0 <= INR i <= 8589934592) by (split; [apply pos_INR|rewrite INR_IZR_INZ; apply IZR_le; lia]).
  set (v := real m_pi * / INR k). assert (hv : 0 <= v <= 4) by (unfold v; split; [apply Rmult_le_pos; lra|]; rewrite <- (Rmult_1_r 4); apply Rmult_le_compat; lra).
  pose proof big_10. assert (b22 : B 1018 <= B 1022) by (apply bpow_le; lia).
  destruct (fdiv_fin m_pi (f_of_nat k) fp) as [fq eq]; [lra|unfold Rdiv; rewrite ek; fold v; rewrite Rabs_pos_eq; lra|]. rewrite ek in eq. unfold Rdiv in eq. fold v in eq.
  set (q := fdiv m_pi (f_of_nat k)) in *. pose proof (rnd_any v) as e1. rewrite <- eq in e1. rewrite (Rabs_pos_eq v) in e1 by lra. fold (real q) in e1.
  assert (r : 0 <= INR i * / INR k <= 2). { split; [apply Rmult_le_pos; lra|]. apply Rmult_le_reg_r with (INR k); [lra|]. rewrite Rmult_assoc, Rinv_l by lra. assert (INR i <= INR (2 * k)) by (apply le_INR; lia). rewrite mult_INR in *. cbn [INR] in *. lra. }
  assert (tiny : 8589934592 * eta <= u / 1000).
  { assert (h : B 33 * B (-1022) <= B (-53 + -10)) by (rewrite <- bpow_plus; apply bpow_le; lia). rewrite bpow_plus in h. change (B 33) with 8589934592 in h. change (B (-10)) with (/ 1024) in h. rewrite u_val. pose proof (bpow_gt_0 radix2 (-53)). lra. }
  assert (iv : INR i * v = real m_pi * (INR i * / INR k)) by (unfold v; ring). assert (iv2 : 0 <= INR i * v <= 63 / 10) by (rewrite iv; split; [apply Rmult_le_pos; lra|]; replace (63 / 10) with (63 / 20 * 2) by lra; apply Rmult_le_compat; lra).
  assert (e2 : Rabs (INR i * real q - INR i * v) <= 631 / 100 * u).
  { replace (INR i * real q - INR i * v) with (INR i * (real q - v)) by ring. rewrite Rabs_mult, (Rabs_pos_eq (INR i)) by lra. eapply Rle_trans; [apply Rmult_le_compat_l; [lra|exact e1]|]. assert (INR i * eta <= 8589934592 * eta) by (apply Rmult_le_compat_r; lra). assert (u * (INR i * v) <= u * (63 / 10)) by (apply Rmult_le_compat_l; lra). lra. }
  assert (e3 : Rabs (INR i * v - PI * INR i / INR k) <= 5 / 2 * u).
  { rewrite iv. replace (real m_pi * (INR i * / INR k) - PI * INR i / INR k) with (- (PI - real m_pi) * (INR i * / INR k)) by (field; lra). replace (5 / 2 * u) with (5 / 4 * u * 2) by lra. apply Rabs_prod_le; [rewrite Rabs_Ropp; exact ep|rewrite Rabs_pos_eq; lra]. }
  assert (hq : Rabs (INR i * real q) <= 64 / 10) by (apply Rabs_le_inv in e2; apply Rabs_le; lra).
  destruct (fmul_fin (f_of_nat i) q fi fq) as [fa ea]; [rewrite ei; lra|]. split; [exact fa|]. unfold a. rewrite ea, ei. pose proof (rnd_any (INR i * real q)) as e4.
  assert (u * Rabs (INR i * real q) <= u * (64 / 10)) by (apply Rmult_le_compat_l; lra).
  assert (e5 : Rabs (rnd (INR i * real q) - PI * INR i / INR k) <= 16 * u) by (eapply Rle_trans; [apply (via _ _ _ _ _ e4 (via _ _ _ _ _ e2 e3))|]; lra).
  split; [exact e5|]. pose proof (near_bound _ _ _ _ e4 hq). lra.
Qed.
Lemma table_near d fcos fsin k out : libm_near d fcos fsin -> (0 < k)%nat -> (Z.of_nat (2 * k) < 2 ^ 32)%Z -> length out = (2 * k)%nat ->
  exists o, sine_period64 fsin (2 * k) out = Some o /\ length o = (2 * k)%nat /\ forall i, (i < 2 * k)%nat -> finite (nth i o fzero) /\ Rabs (real (nth i o fzero) - sin (2 * PI * INR i / INR (2 * k))) <= d + 16 * u.
Proof.
  intros libm hk hk2 lo. unfold sine_period64. replace (2 * k / 2)%nat with k by (rewrite Nat.mul_comm, Nat.div_mul; lia).
  destruct (loop_set (fun i => fsin (fmul (f_of_nat i) (fdiv m_pi (f_of_nat k)))) out (2 * k) fzero (eq_sym lo)) as (o & e & l & h). exists o. split; [exact e|]. split; [exact l|]. intros i hi. rewrite h by exact hi.
  destruct (table_angle i k hk ltac:(lia) hi) as (fa & ea & ba). set (a := fmul (f_of_nat i) _) in *. destruct (libm a fa) as (_ & _ & f & es); [change (2 ^ 40)%Z with 1099511627776%Z; lra|]. split; [exact f|].
  replace (2 * PI * INR i / INR (2 * k)) with (PI * INR i / INR k) by (rewrite mult_INR; cbn [INR]; field; apply not_0_INR; lia).
  assert (hd : 0 <= d). { pose proof (Rabs_pos (real (fsin a) - sin (real a))). destruct (libm a fa) as (_ & c & _ & _); [change (2 ^ 40)%Z with 1099511627776%Z; lra|]. pose proof (Rabs_pos (real (fcos a) - cos (real a))). lra. }
  assert (es' : Rabs (real (fsin a) - sin (real a)) <= d). { eapply Rle_trans; [exact es|]. rewrite <- (Rmult_1_r d) at 2. apply Rmult_le_compat_l; [exact hd|apply Rmin_l]. }
  apply (via _ _ _ _ _ es'). eapply Rle_trans; [apply sin_lipschitz|exact ea].
Qed.

(** ** a cosine and a sine: rounded to multiples of 2^-40, and the sine of small numbers is the number itself *)
Definition cos40 (x : f64) : f64 := fmake (ZnearestE (cos (real x) * B 40)) (-40).
Definition sin40 (x : f64) : f64 := if Rlt_dec (Rabs (real x)) (/ 1048576) then x else fmake (ZnearestE (sin (real x) * B 40)) (-40).
Lemma near40 t : -1 <= t <= 1 -> finite (fmake (ZnearestE (t * B 40)) (-40)) /\ Rabs (real (fmake (ZnearestE (t * B 40)) (-40)) - t) <= / 2 * / 1099511627776.
Proof.
  intros ht. pose proof (Znearest_half (fun x => negb (Z.even x)) (t * B 40)) as h. change (Znearest (fun x => negb (Z.even x))) with ZnearestE in h. set (z := ZnearestE (t * B 40)) in *. apply Rabs_le_inv in h.
  assert (hb : - B 40 <= t * B 40 <= B 40) by (pose proof (bpow_gt_0 radix2 40); nra). change (B 40) with 1099511627776 in *.
  assert (hz : (-1099511627777 < z < 1099511627777)%Z) by (split; apply lt_IZR; lra).
  destruct (fmake_exact z (-40)) as [f e]; [apply Z.abs_lt; change (2 ^ 53)%Z with 9007199254740992%Z; lia|lia|]. split; [exact f|]. rewrite e. change (B (-40)) with (/ 1099511627776). apply Rabs_le. lra.
Qed.
Lemma libm40 : libm_near (/ 1000000) cos40 sin40.
Proof.
  intros x fx _. destruct (near40 (cos (real x)) (COS_bound _)) as [f1 e1]. split; [exact f1|]. split; [unfold cos40; lra|]. unfold sin40. destruct (Rlt_dec (Rabs (real x)) (/ 1048576)) as [l|l].
  - split; [exact fx|]. rewrite Rmin_right by lra. destruct (Req_EM_T (real x) 0) as [z|n]; [rewrite z, sin_0, Rminus_0_r, Rabs_R0; lra|].
    replace (real x - sin (real x)) with (- (sin (real x) / real x - 1) * real x) by (field; exact n). rewrite Rabs_mult, Rabs_Ropp. apply Rmult_le_compat_r; [apply Rabs_pos|].
    eapply Rle_trans; [apply sinr_one; [exact n|lra]|]. replace (real x * real x) with (Rabs (real x) * Rabs (real x)) by (rewrite <- Rabs_mult; apply Rabs_pos_eq; nra). pose proof (Rabs_pos (real x)). assert (Rabs (real x) * Rabs (real x) <= / 1048576 * / 1048576) by (apply Rmult_le_compat; lra). lra.
  - destruct (near40 (sin (real x)) (SIN_bound _)) as [f2 e2]. split; [exact f2|]. eapply Rle_trans; [exact e2|]. assert (h : / 1048576 <= Rmin 1 (Rabs (real x))) by (apply Rmin_glb; lra).
    apply Rle_trans with (/ 1000000 * / 1048576); [lra|]. apply Rmult_le_compat_l; lra.
Qed.
