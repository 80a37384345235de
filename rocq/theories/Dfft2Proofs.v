(** Rounding errors of the transform for powers of two: butterflies and levels *)
From Coq Require Import ZArith Reals List Bool Lia Lra Psatz.
From Flocq Require Import Core BinarySingleNaN.
From Verif Require Import Base DblModel DblSpec DblProofs Dbl2Proofs DlineProofs KerSpec KerProofs PiProofs FftModel FftSpec FftBits FftComplex FftRunProofs FftProofs CmodProofs DfftModel DfftSpec DfftProofs.
Open Scope R_scope.

Lemma twiddle_mod w z : cmod (twiddle_r w z) = cmod w * cmod z.
Proof.
  replace (twiddle_r w z) with ((fst w, - snd w) *c z : C) by (apply c_eq; unfold ptwiddle; cbn [cmul fst snd]; ring). rewrite cmod_mul. f_equal. unfold cmod. f_equal. cbn [fst snd]. ring.
Qed.
Lemma twiddle_split w w' z z' : (twiddle_r w' z' : C) -c twiddle_r w z = (twiddle_r (w' -c w) z' : C) +c twiddle_r w (z' -c z).
Proof. apply c_eq; unfold ptwiddle; cbn [csub cadd fst snd]; ring. Qed.
Lemma big_room a b : (a < b)%Z -> 2 * B a <= B b.
Proof. intros h. change 2 with (B 1) at 1. rewrite <- bpow_plus. apply bpow_le. lia. Qed.
Definition near_turn (eps : R) (w' : P64) (w : C) : Prop := fin2 w' /\ Rabs (real (fst w') - fst w) <= eps /\ Rabs (real (snd w') - snd w) <= eps /\ cmod w = 1.
Lemma near_turn_mod eps w' w : 0 <= eps <= / 10 -> near_turn eps w' w -> cmod (val w' -c w) <= 2 * eps /\ cmod (val w') <= 12 / 10.
Proof.
  intros he (hf & h1 & h2 & h3). assert (h : cmod (val w' -c w) <= 2 * eps) by (replace (2 * eps) with (eps + eps) by ring; apply cmod_le_sum; assumption).
  split; [exact h|]. pose proof (cmod_near _ _ _ h). lra.
Qed.
Lemma twiddle_near eps w' w z' z E M : 0 <= eps <= / 10 -> near_turn eps w' w -> fin2 z' -> cmod (val z' -c z) <= E -> cmod z <= M -> M + E <= B 1016 ->
  fin2 (twiddle64 w' z') /\ cmod (val (twiddle64 w' z') -c twiddle_r w z) <= E + (6 * u + 2 * eps) * (M + E) + 6 * eta.
Proof.
  intros he hw hz h1 h2 hb. destruct (near_turn_mod _ _ _ he hw) as [hw1 hw2]. destruct hw as (fw & _ & _ & hw3). pose proof (cmod_near _ _ _ h1) as hz'. pose proof (cmod_pos (val z')) as p1. pose proof (cmod_pos (val w')) as p2. pose proof u_pos as hu.
  assert (hm : cmod (val w') * cmod (val z') <= 12 / 10 * (M + E)) by (apply Rmult_le_compat; lra).
  destruct (twiddle_err w' z' fw hz) as [f1 e1]; [pose proof (big_room 1016 1018 ltac:(lia)); lra|]. split; [exact f1|].
  assert (e2 : cmod ((twiddle_r (val w') (val z') : C) -c twiddle_r w z) <= 2 * eps * (M + E) + E).
  { rewrite twiddle_split. eapply Rle_trans; [apply cmod_add|]. rewrite !twiddle_mod, hw3. apply Rplus_le_compat; [|lra]. pose proof (cmod_pos (val w' -c w)). apply Rmult_le_compat; lra. }
  assert (h5 : 5 * u * (cmod (val w') * cmod (val z')) <= 5 * u * (12 / 10 * (M + E))) by (apply Rmult_le_compat_l; lra).
  pose proof (cmod_via _ _ _ _ _ e1 e2). lra.
Qed.
(** the growth of errors *)
Lemma growth_arith e eps Ea Eb Et Ma Mb : 0 < u <= / 16 -> 0 < e -> 0 <= eps <= / 10 -> 0 <= Ea -> 0 <= Eb -> 0 <= Ma -> 0 <= Mb -> Et <= Eb + (6 * u + 2 * eps) * (Mb + Eb) + 6 * e ->
  Ea + Et + u * (Ma + Mb + (Ea + Et)) <= Ea + Eb + (8 * u + 3 * eps) * (Ma + Mb + (Ea + Eb)) + 7 * e.
Proof.
  intros hu he hp h1 h2 h3 h4 ht. set (X := Mb + Eb) in *. assert (hX : 0 <= X) by (unfold X; lra).
  assert (a1 : u * Et <= u * (Eb + (6 * u + 2 * eps) * X + 6 * e)) by (apply Rmult_le_compat_l; lra).
  assert (a2 : u * u * X <= / 16 * u * X) by (apply Rmult_le_compat_r; [exact hX|]; apply Rmult_le_compat_r; lra).
  assert (a3 : u * eps * X <= / 16 * eps * X) by (apply Rmult_le_compat_r; [exact hX|]; apply Rmult_le_compat_r; lra).
  assert (a4 : u * e <= / 16 * e) by (apply Rmult_le_compat_r; lra).
  assert (a5 : 0 <= u * X) by (apply Rmult_le_pos; lra). assert (a6 : 0 <= eps * X) by (apply Rmult_le_pos; lra). assert (a7 : 0 <= u * (Ma + Ea)) by (apply Rmult_le_pos; lra). assert (a8 : 0 <= eps * (Ma + Ea)) by (apply Rmult_le_pos; lra).
  unfold X in *. lra.
Qed.
Lemma butterfly_near eps w' w a' a b' b Ea Eb Ma Mb : 0 <= eps <= / 10 -> near_turn eps w' w -> fin2 a' -> fin2 b' -> cmod (val a' -c a) <= Ea -> cmod (val b' -c b) <= Eb -> cmod a <= Ma -> cmod b <= Mb ->
  Ma + Mb + (Ea + Eb) <= B 1012 ->
  let E := Ea + Eb + (8 * u + 3 * eps) * (Ma + Mb + (Ea + Eb)) + 7 * eta in
  (fin2 (padd64 a' (twiddle64 w' b')) /\ cmod (val (padd64 a' (twiddle64 w' b')) -c (a +c twiddle_r w b)) <= E /\ cmod (a +c twiddle_r w b) <= Ma + Mb) /\
  (fin2 (psub64 a' (twiddle64 w' b')) /\ cmod (val (psub64 a' (twiddle64 w' b')) -c (a -c twiddle_r w b)) <= E /\ cmod (a -c twiddle_r w b) <= Ma + Mb).
Proof.
  intros he hw fa fb ha hb hMa hMb hB E. pose proof (cmod_pos a) as qa. pose proof (cmod_pos b) as qb. pose proof (cmod_pos (val a' -c a)) as qa'. pose proof (cmod_pos (val b' -c b)) as qb'. pose proof u_range as hu. pose proof eta_pos as heta. pose proof eta_u as hetau.
  destruct (twiddle_near eps w' w b' b Eb Mb he hw fb hb hMb) as [ft et]; [pose proof (bpow_le radix2 1012 1016 ltac:(lia)); lra|].
  set (t' := twiddle64 w' b') in *. set (t := twiddle_r w b : C) in *. set (Et := cmod (val t' -c t)) in *.
  assert (hG : Ea + Et + u * (Ma + Mb + (Ea + Et)) <= E) by (apply growth_arith; try lra).
  assert (ht : cmod t <= Mb) by (unfold t; rewrite twiddle_mod; destruct hw as (_ & _ & _ & ->); lra).
  assert (hEt : Et <= B 1014).
  { assert (h : (6 * u + 2 * eps) * (Mb + Eb) <= 1 * (Mb + Eb)) by (apply Rmult_le_compat_r; lra). pose proof (big_room 1012 1013 ltac:(lia)). pose proof (big_room 1013 1014 ltac:(lia)). assert (1 <= B 1012) by (change 1 with (B 0); apply bpow_le; lia). lra. }
  assert (pt : 0 <= Et) by apply cmod_pos.
  assert (ha1 : cmod (val a') <= Ma + Ea) by (pose proof (cmod_near _ _ _ ha); lra). assert (ht1 : cmod (val t') <= Mb + Et) by (pose proof (cmod_near (val t') t Et (Rle_refl _)); lra).
  pose proof (bpow_le radix2 1012 1014 ltac:(lia)). pose proof (big_room 1014 1020 ltac:(lia)).
  split.
  - destruct (padd_err a' t' fa ft) as [f1 e1]; try lra. splits; [exact f1| |eapply Rle_trans; [apply cmod_add|]; lra].
    assert (e2 : cmod ((val a' +c val t') -c (a +c t)) <= Ea + Et). { replace ((val a' +c val t') -c (a +c t)) with ((val a' -c a) +c (val t' -c t)) by csolve. eapply Rle_trans; [apply cmod_add|]. unfold Et. lra. }
    assert (e3 : cmod (val a' +c val t') <= Ma + Mb + (Ea + Et)) by (eapply Rle_trans; [apply cmod_add|]; lra).
    assert (e4 : u * cmod (val a' +c val t') <= u * (Ma + Mb + (Ea + Et))) by (apply Rmult_le_compat_l; lra). pose proof (cmod_via _ _ _ _ _ e1 e2). lra.
  - destruct (psub_err a' t' fa ft) as [f1 e1]; try lra. splits; [exact f1| |eapply Rle_trans; [apply cmod_sub|]; lra].
    assert (e2 : cmod ((val a' -c val t') -c (a -c t)) <= Ea + Et). { replace ((val a' -c val t') -c (a -c t)) with ((val a' -c a) -c (val t' -c t)) by csolve. eapply Rle_trans; [apply cmod_sub|]. unfold Et. lra. }
    assert (e3 : cmod (val a' -c val t') <= Ma + Mb + (Ea + Et)) by (eapply Rle_trans; [apply cmod_sub|]; lra).
    assert (e4 : u * cmod (val a' -c val t') <= u * (Ma + Mb + (Ea + Et))) by (apply Rmult_le_compat_l; lra). pose proof (cmod_via _ _ _ _ _ e1 e2). lra.
Qed.

(** ** the sum of the magnitudes of the elements that a position depends on *)
Definition mag (L p : nat) (x : nat -> C) (i : nat) : R := fst (level_fn L p (fun j => (cmod (x j), 0)) (i / 2 ^ p * 2 ^ p)).
Lemma mag_block L p x i j : (i / 2 ^ p = j / 2 ^ p)%nat -> mag L p x i = mag L p x j.
Proof. intros h. unfold mag. rewrite h. reflexivity. Qed.
Lemma mag_start L x i : mag L 0 x i = cmod (x (revb L i)).
Proof.
  unfold mag, level_fn. rewrite Nat.sub_0_r. change (2 ^ 0)%nat with 1%nat. rewrite Nat.mul_1_r, !Nat.div_1_r, Nat.mod_1_r. unfold sub_dft. cbn [csum]. rewrite Nat.mul_0_r, Nat.add_0_r, Nat.mul_0_l, W_0. cbn [cadd cmul czero cone fst snd]. ring.
Qed.
Lemma mag_step L p x b c r : (p < L)%nat -> (c < 2)%nat -> (r < 2 ^ p)%nat -> (b < 2 ^ (L - S p))%nat ->
  mag L (S p) x (b * (2 * 2 ^ p) + c * 2 ^ p + r) = mag L p x (b * (2 * 2 ^ p)) + mag L p x (b * (2 * 2 ^ p) + 2 ^ p).
Proof.
  intros hp hc hr hb. pose proof (pow2_pos p) as hpp.
  assert (en : (2 ^ L = 2 * 2 ^ p * 2 ^ (L - S p))%nat) by (change (2 * 2 ^ p)%nat with (2 ^ S p)%nat; rewrite <- Nat.pow_add_r; f_equal; lia).
  unfold mag. change (2 ^ S p)%nat with (2 * 2 ^ p)%nat. set (N := (2 ^ p)%nat) in *.
  replace ((b * (2 * N) + c * N + r) / (2 * N))%nat with b by (apply (Nat.div_unique _ (2 * N) b (c * N + r)); nia).
  rewrite <- level_step by (try lia; nia). unfold stage_fn. cbv zeta. fold N. rewrite Nat.mod_mul by lia. rewrite (proj2 (Nat.ltb_lt 0 N)) by lia. rewrite W_0.
  replace (b * (2 * N) / N)%nat with (b * 2)%nat by (replace (b * (2 * N))%nat with (b * 2 * N)%nat by lia; rewrite Nat.div_mul by lia; reflexivity).
  replace ((b * (2 * N) + N) / N)%nat with (b * 2 + 1)%nat by (replace (b * (2 * N) + N)%nat with ((b * 2 + 1) * N)%nat by lia; rewrite Nat.div_mul by lia; reflexivity).
  replace (b * 2 * N)%nat with (b * (2 * N))%nat by lia. replace ((b * 2 + 1) * N)%nat with (b * (2 * N) + N)%nat by lia. cbn [cadd cmul cone fst snd]. ring.
Qed.
Lemma mag_pos L p x i : 0 <= mag L p x i.
Proof.
  unfold mag, level_fn, sub_dft. set (m := (2 ^ p)%nat). rewrite Nat.mod_mul by (unfold m; pose proof (pow2_pos p); lia). rewrite csum_parts. cbn [fst]. apply Rle_trans with (rsumf m (fun _ => 0)); [rewrite rsumf_const; lra|].
  apply rsumf_le. intros j _. rewrite Nat.mul_0_r, W_0. cbn [cmul cone fst snd]. pose proof (cmod_pos (x (revb (L - p) (i / m * m / m) + 2 ^ (L - p) * j)%nat)). lra.
Qed.
Lemma mag_all L x i : (i < 2 ^ L)%nat -> mag L L x i = rsumf (2 ^ L) (fun j => cmod (x j)).
Proof.
  intros hi. unfold mag, level_fn, sub_dft. rewrite Nat.mod_mul by (pose proof (pow2_pos L); lia). rewrite csum_parts, Nat.sub_diag. cbn [fst revb Nat.pow]. apply rsumf_ext. intros j _. rewrite Nat.mul_0_r, W_0.
  cbn [cmul cone fst snd]. rewrite Nat.add_0_l, Nat.mul_1_l. ring.
Qed.
(** position [i] in terms of its block of two halves *)
Lemma block_parts p i : exists b c r, i = (b * (2 * 2 ^ p) + c * 2 ^ p + r)%nat /\ (c < 2)%nat /\ (r < 2 ^ p)%nat /\ (i mod (2 * 2 ^ p) = c * 2 ^ p + r)%nat /\ (i / (2 * 2 ^ p) = b)%nat.
Proof.
  pose proof (pow2_pos p). set (N := (2 ^ p)%nat) in *. exists (i / (2 * N))%nat, ((i mod (2 * N)) / N)%nat, ((i mod (2 * N)) mod N)%nat. pose proof (Nat.mod_upper_bound i (2 * N) ltac:(lia)). pose proof (Nat.mod_upper_bound (i mod (2 * N)) N ltac:(lia)).
  pose proof (Nat.div_mod i (2 * N) ltac:(lia)) as e1. pose proof (Nat.div_mod (i mod (2 * N)) N ltac:(lia)) as e2. splits; try lia; try (apply Nat.div_lt_upper_bound; lia); nia.
Qed.
Lemma mag_le L p x i : (p < L)%nat -> (i < 2 ^ L)%nat -> mag L p x i <= mag L (S p) x i.
Proof.
  intros hp hi. pose proof (pow2_pos p) as hpp. destruct (block_parts p i) as (b & c & r & e & hc & hr & _ & hb). set (N := (2 ^ p)%nat) in *.
  assert (en : (2 ^ L = 2 * N * 2 ^ (L - S p))%nat) by (unfold N; change (2 * 2 ^ p)%nat with (2 ^ S p)%nat; rewrite <- Nat.pow_add_r; f_equal; lia).
  assert (hb2 : (b < 2 ^ (L - S p))%nat) by (rewrite <- hb; apply Nat.div_lt_upper_bound; lia). rewrite e at 2. unfold N. rewrite mag_step by assumption. fold N.
  pose proof (mag_pos L p x (b * (2 * N))). pose proof (mag_pos L p x (b * (2 * N) + N)).
  assert (c = 0 \/ c = 1)%nat as [->| ->] by lia.
  - rewrite (mag_block L p x i (b * (2 * N))); [lra|]. fold N. rewrite e. replace (b * (2 * N))%nat with (b * 2 * N)%nat by lia. rewrite Nat.div_mul by lia. symmetry. apply (Nat.div_unique _ N _ r); lia.
  - rewrite (mag_block L p x i (b * (2 * N) + N)); [lra|]. fold N. rewrite e. replace (b * (2 * N) + N)%nat with ((b * 2 + 1) * N)%nat by lia. rewrite Nat.div_mul by lia. symmetry. apply (Nat.div_unique _ N _ r); lia.
Qed.
Lemma mag_total L x i : (i < 2 ^ L)%nat -> forall p, (p <= L)%nat -> mag L p x i <= rsumf (2 ^ L) (fun j => cmod (x j)).
Proof.
  intros hi p hp. rewrite <- (mag_all L x i hi). remember (L - p)%nat as k eqn:ek. revert p hp ek. induction k as [|k IH]; intros p hp ek.
  - replace p with L by lia. lra.
  - eapply Rle_trans; [apply mag_le; [lia|exact hi]|]. apply IH; lia.
Qed.

(** ** the levels *)
Section Levels.
Variable d : R.
Variable fcos fsin : f64 -> f64.
Hypothesis libm : libm_within d fcos fsin.
Hypothesis d_range : 0 <= d <= / 1000000.
Notation level64 := (level_run f64 fadd fsub fmul fneg (fun i n => fcos (angle_turn i n)) (fun i n => fsin (angle_turn i n))).
Notation tw64 := (tw_run f64 (fun i n => fcos (angle_turn i n)) (fun i n => fsin (angle_turn i n))).
Notation tw_r := (tw_run R (fun i n => cos (2 * PI * INR i / INR n)) (fun i n => sin (2 * PI * INR i / INR n))).
Definition rho : R := 32 * u + 3 * d.
Definition kap (p : nat) : R := (1 + rho) ^ p - 1.
Definition lam (p : nat) : R := 3 * eta * (4 ^ p - 1).
Lemma rho_range : 0 < rho <= / 1000.
Proof. unfold rho. pose proof u_pos. pose proof (u_bound 1000000 ltac:(lia) ltac:(intro; discriminate)). lra. Qed.
Lemma kap_bound p : (p <= 36)%nat -> 0 <= kap p <= 2 * INR p * rho.
Proof.
  pose proof rho_range as hr. unfold kap. induction p as [|p IH]; intros hp; [cbn; lra|]. specialize (IH ltac:(lia)). rewrite S_INR. cbn [pow]. set (y := (1 + rho) ^ p) in *. pose proof (pos_INR p). assert (INR p <= 36) by (change 36 with (IZR (Z.of_nat 36)); rewrite <- INR_IZR_INZ; apply le_INR; lia).
  assert (rho * y <= rho * (2 * INR p * rho + 1)) by (apply Rmult_le_compat_l; lra). assert (INR p * rho <= 36 * rho) by (apply Rmult_le_compat_r; lra). assert (0 <= rho * (y - 1)) by (apply Rmult_le_pos; lra).
  assert (rho * (INR p * rho) <= rho * (36 * / 1000)) by (apply Rmult_le_compat_l; lra). lra.
Qed.
Lemma lam_pos p : 0 <= lam p.
Proof. unfold lam. pose proof eta_pos. assert (1 <= 4 ^ p) by (apply pow_R1_Rle; lra). apply Rmult_le_pos; lra. Qed.
Lemma four_pow p : 4 ^ p = INR (2 ^ p) * INR (2 ^ p).
Proof. induction p as [|p IH]; [cbn; lra|]. cbn [pow]. rewrite IH, Nat.pow_succ_r', mult_INR. cbn [INR]. ring. Qed.
Lemma pow_36 p : (p <= 36)%nat -> INR (2 ^ p) <= B 36.
Proof.
  intros h. rewrite INR_IZR_INZ. rewrite Nat2Z.inj_pow. change (Z.of_nat 2) with 2%Z. rewrite <- (IZR_pow2 36) by lia. apply IZR_le. apply Z.pow_le_mono_r; lia. Qed.
Lemma lam_small p : (p <= 36)%nat -> lam p <= 1.
Proof.
  intros h. unfold lam. rewrite four_pow. pose proof (pow_36 p h). pose proof (pos_INR (2 ^ p)). assert (INR (2 ^ p) * INR (2 ^ p) <= B 72) by (replace (B 72) with (B 36 * B 36) by (rewrite <- bpow_plus; reflexivity); apply Rmult_le_compat; lra).
  pose proof eta_pos. assert (3 * eta * (INR (2 ^ p) * INR (2 ^ p) - 1) <= 3 * eta * B 72) by (apply Rmult_le_compat_l; lra). assert (eta * B 72 <= / 4); [|lra]. rewrite <- bpow_plus. change (/ 4) with (B (-2)). apply bpow_le. lia.
Qed.
Lemma kap_step p : (1 + kap p) * (1 + rho) - 1 = kap (S p). Proof. unfold kap. cbn [pow]. ring. Qed.
Lemma lam_step p : 2 * lam p * (1 + rho) + 7 * eta <= lam (S p).
Proof.
  pose proof (lam_pos p) as hl. pose proof rho_range. pose proof eta_pos. assert (2 * lam p * (1 + rho) <= 2 * lam p * 2) by (apply Rmult_le_compat_l; lra).
  assert (e : lam (S p) = 4 * lam p + 9 * eta) by (unfold lam; cbn [pow]; ring). lra.
Qed.
Lemma tw_near L p q : (p < L)%nat -> (L <= 36)%nat -> (q < 2 ^ p)%nat -> near_turn (d + 8 * u) (tw64 L p q) (tw_r L p q).
Proof.
  intros hp hL hq. pose proof (pow2_pos p). pose proof (pow2_pos (L - S p)). assert (en : (2 ^ L = 2 * 2 ^ p * 2 ^ (L - S p))%nat) by (change (2 * 2 ^ p)%nat with (2 ^ S p)%nat; rewrite <- Nat.pow_add_r; f_equal; lia).
  assert (h32 : (Z.of_nat (2 ^ L) <= 2 ^ 36)%Z) by (rewrite Nat2Z.inj_pow; apply Z.pow_le_mono_r; lia).
  destruct (turn_ok d fcos fsin libm (q * 2 ^ (L - S p)) (2 ^ L)) as (h1 & h2 & h3 & h4); [lia|exact h32|nia|]. unfold near_turn, fin2, tw_run. cbn [fst snd]. splits; auto.
  pose proof (cmod_exp (2 * PI * INR (q * 2 ^ (L - S p)) / INR (2 ^ L))) as e. rewrite <- e. unfold cmod, cexp. f_equal. cbn [fst snd]. ring.
Qed.
Lemma level_near L x : (L <= 36)%nat -> (forall i, (i < 2 ^ L)%nat -> fin2 (x i)) -> rsumf (2 ^ L) (fun j => cmod (val (x j))) <= B 1008 -> forall p, (p <= L)%nat -> forall i, (i < 2 ^ L)%nat ->
  let X := fun j => val (x j) in
  fin2 (level64 L p x i) /\ cmod (val (level64 L p x i) -c level_r L p X i) <= kap p * mag L p X i + lam p /\ cmod (level_r L p X i) <= mag L p X i.
Proof.
  intros hL hx hS p hp i hi X. revert p hp i hi. induction p as [|p IH]; intros hp i hi.
  - cbn [level_run]. rewrite mag_start. assert (hr : (revb L i < 2 ^ L)%nat) by apply revb_lt. splits; [apply hx; exact hr| |lra].
    unfold kap, lam. cbn [pow]. unfold X. replace (val (x (revb L i)) -c val (x (revb L i))) with czero by csolve. rewrite cmod_0. lra.
  - pose proof (pow2_pos p) as hpp. destruct (block_parts p i) as (b & c & r & e & hc & hr & hm & hb). set (N := (2 ^ p)%nat) in *.
    assert (en : (2 ^ L = 2 * N * 2 ^ (L - S p))%nat) by (unfold N; change (2 * 2 ^ p)%nat with (2 ^ S p)%nat; rewrite <- Nat.pow_add_r; f_equal; lia).
    assert (hb2 : (b < 2 ^ (L - S p))%nat) by (rewrite <- hb; apply Nat.div_lt_upper_bound; lia).
    set (lo := (b * (2 * N) + r)%nat). set (hi' := (b * (2 * N) + N + r)%nat). assert (hlo : (lo < 2 ^ L)%nat) by (unfold lo; nia). assert (hhi : (hi' < 2 ^ L)%nat) by (unfold hi'; nia).
    destruct (IH ltac:(lia) lo hlo) as (fa & ea & ma). destruct (IH ltac:(lia) hi' hhi) as (fb & eb & mb).
    assert (elo : mag L p X lo = mag L p X (b * (2 * N))). { apply mag_block. fold N. unfold lo. replace (b * (2 * N))%nat with (b * 2 * N)%nat by lia. rewrite Nat.div_mul by lia. symmetry. apply (Nat.div_unique _ N _ r); lia. }
    assert (ehi : mag L p X hi' = mag L p X (b * (2 * N) + N)). { apply mag_block. fold N. unfold hi'. replace (b * (2 * N) + N)%nat with ((b * 2 + 1) * N)%nat by lia. rewrite Nat.div_mul by lia. symmetry. apply (Nat.div_unique _ N _ r); lia. }
    assert (emag : mag L (S p) X i = mag L p X lo + mag L p X hi'). { rewrite elo, ehi, e. unfold N. apply mag_step; assumption. }
    pose proof (mag_pos L p X lo) as pl. pose proof (mag_pos L p X hi') as ph. pose proof (mag_total L X i hi (S p) hp) as hT. rewrite emag in hT.
    set (Ma := mag L p X lo) in *. set (Mb := mag L p X hi') in *. destruct (kap_bound p ltac:(lia)) as [k1 k2]. pose proof (lam_pos p) as l1. pose proof (lam_small p ltac:(lia)) as l2. pose proof rho_range as hrho.
    assert (hk : kap p <= 1). { assert (INR p <= 36) by (change 36 with (IZR (Z.of_nat 36)); rewrite <- INR_IZR_INZ; apply le_INR; lia). pose proof (pos_INR p). assert (INR p * rho <= 36 * / 1000) by (apply Rmult_le_compat; lra). lra. }
    assert (hB : Ma + Mb + (kap p * Ma + lam p + (kap p * Mb + lam p)) <= B 1012).
    { assert (kap p * (Ma + Mb) <= 1 * (Ma + Mb)) by (apply Rmult_le_compat_r; lra). pose proof (big_room 1008 1009 ltac:(lia)). pose proof (big_room 1009 1010 ltac:(lia)). pose proof (bpow_le radix2 1010 1012 ltac:(lia)). assert (1 <= B 1008) by (change 1 with (B 0); apply bpow_le; lia). unfold X in *. lra. }
    assert (he : 0 <= d + 8 * u <= / 10) by (pose proof u_pos; pose proof (u_bound 1000 ltac:(lia) ltac:(intro; discriminate)); lra).
    destruct (butterfly_near (d + 8 * u) _ _ _ _ _ _ _ _ _ _ he (tw_near L p r ltac:(lia) hL hr) fa fb ea eb ma mb hB) as [h1 h2].
    assert (hE : kap p * Ma + lam p + (kap p * Mb + lam p) + (8 * u + 3 * (d + 8 * u)) * (Ma + Mb + (kap p * Ma + lam p + (kap p * Mb + lam p))) + 7 * eta <= kap (S p) * (Ma + Mb) + lam (S p)).
    { replace (8 * u + 3 * (d + 8 * u)) with rho by (unfold rho; ring). rewrite <- kap_step. pose proof (lam_step p). lra. }
    rewrite emag. cbn [level_run]. unfold stage_run. cbv zeta. fold N. rewrite hm. assert (c = 0 \/ c = 1)%nat as [->| ->] by lia.
    + rewrite Nat.mul_0_l, Nat.add_0_l. rewrite (proj2 (Nat.ltb_lt r N) hr). replace i with lo by (unfold lo; lia). replace (lo + N)%nat with hi' by (unfold hi', lo; lia). destruct h1 as (q1 & q2 & q3). splits; [exact q1| |exact q3]. eapply Rle_trans; [exact q2|exact hE].
    + rewrite Nat.mul_1_l. rewrite (proj2 (Nat.ltb_ge (N + r) N)) by lia. replace (N + r - N)%nat with r by lia. replace i with hi' by (unfold hi'; lia). replace (hi' - N)%nat with lo by (unfold hi', lo; lia). destruct h2 as (q1 & q2 & q3). splits; [exact q1| |exact q3]. eapply Rle_trans; [exact q2|exact hE].
Qed.
(** the transform of a power of two *)
Lemma radix2_near L x : (L <= 36)%nat -> (forall i, (i < 2 ^ L)%nat -> fin2 (x i)) -> let S := rsumf (2 ^ L) (fun j => cmod (val (x j))) in S <= B 1008 -> forall i, (i < 2 ^ L)%nat ->
  fin2 (level64 L L x i) /\ cmod (val (level64 L L x i) -c DFT (2 ^ L) (fun j => val (x j)) i) <= 2 * INR L * rho * S + 3 * eta * (INR (2 ^ L) * INR (2 ^ L)).
Proof.
  intros hL hx S hS i hi. destruct (level_near L x hL hx hS L (le_n _) i hi) as (h1 & h2 & _). split; [exact h1|]. rewrite level_all in h2 by exact hi. rewrite mag_all in h2 by exact hi. fold S in h2.
  assert (0 <= S) by (unfold S; rewrite <- (mag_all L (fun j => val (x j)) i hi); apply mag_pos). destruct (kap_bound L ltac:(lia)) as [_ k]. assert (kap L * S <= 2 * INR L * rho * S) by (apply Rmult_le_compat_r; lra).
  unfold lam in h2. rewrite four_pow in h2. pose proof eta_pos. lra.
Qed.
End Levels.
