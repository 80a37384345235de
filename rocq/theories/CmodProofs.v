(** The magnitude of complex numbers *)
From Coq Require Import Reals Lra Lia Psatz.
From Verif Require Import Base KerSpec FftComplex.
Open Scope R_scope.

Definition cmod (z : C) : R := sqrt (fst z * fst z + snd z * snd z).
Lemma cmod_arg (z : C) : 0 <= fst z * fst z + snd z * snd z.
Proof. nra. Qed.
Lemma cmod_pos z : 0 <= cmod z. Proof. apply sqrt_pos. Qed.
Lemma cmod_sq z : cmod z * cmod z = fst z * fst z + snd z * snd z.
Proof. apply sqrt_sqrt, cmod_arg. Qed.
Lemma sq_le a b : 0 <= b -> a * a <= b * b -> a <= b.
Proof. intros hb h. destruct (Rle_dec a b); [assumption|nra]. Qed.
Lemma cmod_fst z : Rabs (fst z) <= cmod z.
Proof. apply sq_le; [apply cmod_pos|]. rewrite cmod_sq. rewrite <- Rabs_mult. rewrite Rabs_pos_eq by nra. nra. Qed.
Lemma cmod_snd z : Rabs (snd z) <= cmod z.
Proof. apply sq_le; [apply cmod_pos|]. rewrite cmod_sq. rewrite <- Rabs_mult. rewrite Rabs_pos_eq by nra. nra. Qed.
Lemma cmod_le_sum z a b : Rabs (fst z) <= a -> Rabs (snd z) <= b -> cmod z <= a + b.
Proof.
  intros ha hb. pose proof (Rabs_pos (fst z)). pose proof (Rabs_pos (snd z)). apply sq_le; [lra|]. rewrite cmod_sq.
  assert (fst z * fst z <= a * a) by (rewrite <- (Rabs_pos_eq (fst z * fst z)) by nra; rewrite Rabs_mult; nra).
  assert (snd z * snd z <= b * b) by (rewrite <- (Rabs_pos_eq (snd z * snd z)) by nra; rewrite Rabs_mult; nra). nra.
Qed.
Lemma cmod_mul a b : cmod (a *c b) = cmod a * cmod b.
Proof.
  unfold cmod. rewrite <- sqrt_mult by apply cmod_arg. f_equal. cbn [cmul fst snd]. ring.
Qed.
(** Cauchy and Schwarz *)
Lemma cmod_dot (a b : C) : Rabs (fst a * fst b) + Rabs (snd a * snd b) <= cmod a * cmod b.
Proof.
  pose proof (cmod_pos a). pose proof (cmod_pos b). apply sq_le; [nra|].
  replace (cmod a * cmod b * (cmod a * cmod b)) with ((cmod a * cmod a) * (cmod b * cmod b)) by ring. rewrite !cmod_sq, !Rabs_mult.
  assert (e : forall x, x * x = Rabs x * Rabs x) by (intros x; rewrite <- Rabs_mult; rewrite Rabs_pos_eq; nra). rewrite (e (fst a)), (e (snd a)), (e (fst b)), (e (snd b)).
  set (p := Rabs (fst a)). set (q := Rabs (snd a)). set (r := Rabs (fst b)). set (s := Rabs (snd b)).
  pose proof (Rle_0_sqr (p * s - q * r)) as h. unfold Rsqr in h. nra.
Qed.
Lemma cmod_cross (a b : C) : Rabs (fst a * snd b) + Rabs (snd a * fst b) <= cmod a * cmod b.
Proof.
  pose proof (cmod_dot a (snd b, fst b)) as h. cbn [fst snd] in h. replace (cmod (snd b, fst b)) with (cmod b) in h; [exact h|]. unfold cmod. f_equal. cbn [fst snd]. ring.
Qed.
Lemma cmod_add a b : cmod (a +c b) <= cmod a + cmod b.
Proof.
  pose proof (cmod_pos a). pose proof (cmod_pos b). apply sq_le; [lra|]. rewrite cmod_sq. cbn [cadd fst snd].
  pose proof (cmod_dot a b) as h. pose proof (Rle_abs (fst a * fst b)). pose proof (Rle_abs (snd a * snd b)). pose proof (cmod_sq a). pose proof (cmod_sq b). nra.
Qed.
Lemma cmod_opp a : cmod (copp a) = cmod a.
Proof. unfold cmod. f_equal. cbn [copp fst snd]. ring. Qed.
Lemma cmod_sub a b : cmod (a -c b) <= cmod a + cmod b.
Proof. rewrite <- (cmod_opp b). replace (a -c b) with (a +c copp b) by csolve. apply cmod_add. Qed.
Lemma cmod_swap_sub a b : cmod (a -c b) = cmod (b -c a).
Proof. rewrite <- cmod_opp. f_equal. csolve. Qed.
Lemma cmod_near a b e : cmod (a -c b) <= e -> cmod a <= cmod b + e.
Proof. intros h. replace a with (b +c (a -c b)) by csolve. eapply Rle_trans; [apply cmod_add|]. lra. Qed.
Lemma cmod_via a b c x y : cmod (a -c b) <= x -> cmod (b -c c) <= y -> cmod (a -c c) <= x + y.
Proof. intros hx hy. replace (a -c c) with ((a -c b) +c (b -c c)) by csolve. eapply Rle_trans; [apply cmod_add|]. lra. Qed.
Lemma cmod_scale (z : C) (v : C) e : 0 <= e -> Rabs (fst z) <= e * Rabs (fst v) -> Rabs (snd z) <= e * Rabs (snd v) -> cmod z <= e * cmod v.
Proof.
  intros he h1 h2. pose proof (cmod_pos v). apply sq_le; [nra|]. replace (e * cmod v * (e * cmod v)) with (e * e * (cmod v * cmod v)) by ring. rewrite !cmod_sq.
  assert (e0 : forall x, x * x = Rabs x * Rabs x) by (intros x; rewrite <- Rabs_mult; rewrite Rabs_pos_eq; nra). rewrite (e0 (fst z)), (e0 (snd z)), (e0 (fst v)), (e0 (snd v)).
  pose proof (Rabs_pos (fst z)). pose proof (Rabs_pos (snd z)). nra.
Qed.
Lemma cmod_0 : cmod czero = 0.
Proof. unfold cmod. cbn [czero fst snd]. rewrite Rmult_0_l, Rplus_0_r. apply sqrt_0. Qed.
Lemma cmod_real x : cmod (x, 0) = Rabs x.
Proof. unfold cmod. cbn [fst snd]. rewrite Rmult_0_l, Rplus_0_r. apply sqrt_Rsqr_abs. Qed.
Lemma cmod_exp t : cmod (cexp t) = 1.
Proof. unfold cmod. cbn [cexp fst snd]. replace (cos t * cos t + - sin t * - sin t) with (Rsqr (sin t) + Rsqr (cos t)) by (unfold Rsqr; ring). rewrite sin2_cos2. apply sqrt_1. Qed.
Lemma cmod_W n a : cmod (W n a) = 1.
Proof. apply cmod_exp. Qed.
Lemma cmod_Wc n a : cmod (Wc n a) = 1.
Proof. rewrite <- (cmod_W n a). unfold cmod, Wc. f_equal. cbn [fst snd]. ring. Qed.
Lemma cmod_sw (z : C) : cmod (snd z, fst z) = cmod z.
Proof. unfold cmod. f_equal. cbn [fst snd]. ring. Qed.
Lemma rsumf_le n f g : (forall i, (i < n)%nat -> f i <= g i) -> rsumf n f <= rsumf n g.
Proof. induction n as [|n IH]; cbn [rsumf]; intros h; [lra|]. pose proof (h n ltac:(lia)). pose proof (IH (fun i hi => h i ltac:(lia))). lra. Qed.
Lemma rsumf_const n c : rsumf n (fun _ => c) = INR n * c.
Proof. induction n as [|n IH]; cbn [rsumf]; [cbn; ring|]. rewrite IH, S_INR. ring. Qed.
Lemma cmod_csum n f : cmod (csum n f) <= rsumf n (fun i => cmod (f i)).
Proof. induction n as [|n IH]; cbn [csum rsumf]; [rewrite cmod_0; lra|]. eapply Rle_trans; [apply cmod_add|]. lra. Qed.
Lemma cmod_DFT n x k : cmod (DFT n x k) <= rsumf n (fun i => cmod (x i)).
Proof. eapply Rle_trans; [apply cmod_csum|]. apply rsumf_le. intros i _. rewrite cmod_mul, cmod_W. lra. Qed.
Lemma DFT_sub n x y k : DFT n x k -c DFT n y k = DFT n (fun i => x i -c y i) k.
Proof.
  unfold DFT. assert (h : forall m, csum m (fun j => x j *c W n (j * k)) -c csum m (fun j => y j *c W n (j * k)) = csum m (fun j => (x j -c y j) *c W n (j * k))); [|apply h].
  induction m as [|m IH]; cbn [csum]; [csolve|]. rewrite <- IH. ring.
Qed.
Lemma DFT_near n x y k : cmod (DFT n x k -c DFT n y k) <= rsumf n (fun i => cmod (x i -c y i)).
Proof. rewrite DFT_sub. apply cmod_DFT. Qed.
