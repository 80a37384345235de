(** Complex numbers as pairs, roots of unity, sums and the algebra of the discrete Fourier transform. *)
From Coq Require Import Reals Lra.
From Verif Require Import Base KerSpec KerProofs.
Open Scope R_scope.

Definition C : Type := R * R.
Definition czero : C := (0, 0).
Definition cone : C := (1, 0).
Definition cadd (a b : C) : C := (fst a + fst b, snd a + snd b).
Definition cmul (a b : C) : C := (fst a * fst b - snd a * snd b, fst a * snd b + snd a * fst b).
Definition copp (a : C) : C := (- fst a, - snd a).
Definition csub (a b : C) : C := (fst a - fst b, snd a - snd b).
Lemma c_eq (a b : C) : fst a = fst b -> snd a = snd b -> a = b.
Proof. destruct a, b. cbn. intros -> ->. reflexivity. Qed.
Ltac csolve := apply c_eq; cbn [fst snd cadd cmul copp csub czero cone]; ring.
Lemma C_ring : ring_theory czero cone cadd cmul csub copp eq.
Proof. constructor; intros; csolve. Qed.
Add Ring CRing : C_ring.
Declare Scope C_scope.
Notation "a +c b" := (cadd a b) (at level 50, left associativity).
Notation "a -c b" := (csub a b) (at level 50, left associativity).
Notation "a *c b" := (cmul a b) (at level 40, left associativity).

Lemma cmul_zero (a b : C) : a *c b = czero -> a = czero \/ b = czero.
Proof.
  destruct a as [a1 a2], b as [b1 b2]. unfold cmul, czero. cbn [fst snd]. intros e. injection e as e1 e2.
  assert (h : (a1 * a1 + a2 * a2) * (b1 * b1 + b2 * b2) = 0).
  { replace ((a1 * a1 + a2 * a2) * (b1 * b1 + b2 * b2)) with ((a1 * b1 - a2 * b2) * (a1 * b1 - a2 * b2) + (a1 * b2 + a2 * b1) * (a1 * b2 + a2 * b1)) by ring. rewrite e1, e2. ring. }
  assert (hs : forall x y : R, x * x + y * y = 0 -> x = 0 /\ y = 0).
  { intros x y hxy. pose proof (Rle_0_sqr x). pose proof (Rle_0_sqr y). unfold Rsqr in *. split; apply Rsqr_0_uniq; unfold Rsqr; lra. }
  apply Rmult_integral in h as [h|h]; apply hs in h as [-> ->]; auto.
Qed.

Fixpoint csum (n : nat) (f : nat -> C) : C := match n with O => czero | S n => csum n f +c f n end.
Lemma csum_ext n f g : (forall i, (i < n)%nat -> f i = g i) -> csum n f = csum n g.
Proof. induction n; intros h; cbn [csum]; [reflexivity|]. rewrite IHn by (intros; apply h; lia). rewrite h by lia. reflexivity. Qed.
Lemma csum_plus n f g : csum n (fun i => f i +c g i) = csum n f +c csum n g.
Proof. induction n; cbn [csum]; [csolve|]. rewrite IHn. ring. Qed.
Lemma csum_scal n c f : csum n (fun i => c *c f i) = c *c csum n f.
Proof. induction n; cbn [csum]; [csolve|]. rewrite IHn. ring. Qed.
Lemma csum_zero n : csum n (fun _ => czero) = czero.
Proof. induction n; cbn [csum]; [reflexivity|]. rewrite IHn. csolve. Qed.
Lemma csum_zero_in n f : (forall i, (i < n)%nat -> f i = czero) -> csum n f = czero.
Proof. intros h. rewrite (csum_ext n f (fun _ => czero)) by exact h. apply csum_zero. Qed.
Lemma csum_one n k f : (k < n)%nat -> (forall i, (i < n)%nat -> i <> k -> f i = czero) -> csum n f = f k.
Proof.
  induction n as [|n IH]; intros hk h; [lia|]. cbn [csum]. destruct (Nat.eq_dec n k) as [->|hne].
  - rewrite csum_zero_in by (intros; apply h; lia). ring.
  - rewrite IH by (try lia; intros; apply h; lia). rewrite (h n) by lia. ring.
Qed.
Lemma csum_swap n m (f : nat -> nat -> C) : csum n (fun i => csum m (f i)) = csum m (fun j => csum n (fun i => f i j)).
Proof. induction n; cbn [csum]; [symmetry; apply csum_zero|]. rewrite IHn, <- csum_plus. reflexivity. Qed.
Lemma csum_even_odd n f : csum (2 * n) f = csum n (fun j => f (2 * j)%nat) +c csum n (fun j => f (2 * j + 1)%nat).
Proof.
  induction n; [change (2 * 0)%nat with 0%nat; cbn [csum]; csolve|]. replace (2 * S n)%nat with (S (S (2 * n))) by lia. cbn [csum]. rewrite IHn. replace (2 * n + 1)%nat with (S (2 * n)) by lia. ring.
Qed.
Lemma csum_shift n f : csum (S n) f = f 0%nat +c csum n (fun i => f (S i)).
Proof. induction n; [cbn [csum]; ring|]. remember (S n) as m. cbn [csum]. rewrite IHn. subst m. cbn [csum]. ring. Qed.
Lemma csum_app n m f : csum (n + m) f = csum n f +c csum m (fun i => f (n + i)%nat).
Proof. induction m; [rewrite Nat.add_0_r; cbn [csum]; ring|]. rewrite Nat.add_succ_r. cbn [csum]. rewrite IHm. ring. Qed.
Lemma csum_parts n f : csum n f = (rsumf n (fun i => fst (f i)), rsumf n (fun i => snd (f i))).
Proof. induction n; cbn [csum rsumf]; [reflexivity|]. rewrite IHn. reflexivity. Qed.

(** exp(-i t) *)
Definition cexp (t : R) : C := (cos t, - sin t).
Lemma cexp_add s t : cexp (s + t) = cexp s *c cexp t.
Proof. apply c_eq; cbn [cexp cmul fst snd]; [rewrite cos_plus; ring|rewrite sin_plus; ring]. Qed.
Lemma cexp_0 : cexp 0 = cone.
Proof. apply c_eq; cbn; [apply cos_0|rewrite sin_0; ring]. Qed.
Lemma cexp_2pi k : cexp (2 * PI * INR k) = cone.
Proof.
  induction k; [cbn [INR]; rewrite Rmult_0_r; apply cexp_0|]. rewrite S_INR. replace (2 * PI * (INR k + 1)) with (2 * PI * INR k + 2 * PI) by ring. rewrite cexp_add, IHk.
  apply c_eq; cbn; [rewrite cos_2PI, sin_2PI|rewrite cos_2PI, sin_2PI]; ring.
Qed.
Definition W (n a : nat) : C := cexp (2 * PI * INR a / INR n).
Lemma INR_pos n : (0 < n)%nat -> INR n <> 0.
Proof. intros h. apply not_0_INR. lia. Qed.
Lemma W_add n a b : (0 < n)%nat -> W n (a + b) = W n a *c W n b.
Proof. intros h. unfold W. rewrite <- cexp_add. f_equal. rewrite plus_INR. field. apply INR_pos. exact h. Qed.
Lemma W_0 n : W n 0 = cone.
Proof. unfold W. cbn [INR]. replace (2 * PI * 0 / INR n) with 0 by (unfold Rdiv; ring). apply cexp_0. Qed.
Lemma W_full n a : (0 < n)%nat -> W n (n * a) = cone.
Proof. intros h. unfold W. rewrite mult_INR. replace (2 * PI * (INR n * INR a) / INR n) with (2 * PI * INR a) by (field; apply INR_pos; exact h). apply cexp_2pi. Qed.
Lemma W_period n a b : (0 < n)%nat -> W n (a + n * b) = W n a.
Proof. intros h. rewrite W_add, W_full by exact h. ring. Qed.
Lemma W_mod n a : (0 < n)%nat -> W n (a mod n) = W n a.
Proof. intros h. rewrite (Nat.div_mod a n) at 2 by lia. rewrite Nat.add_comm. rewrite W_period by exact h. reflexivity. Qed.
Lemma W_scale n a c : (0 < n)%nat -> (0 < c)%nat -> W (n * c) (a * c) = W n a.
Proof. intros h hc. unfold W. f_equal. rewrite !mult_INR. field. split; apply INR_pos; assumption. Qed.
Lemma W_half n : (0 < n)%nat -> W (2 * n) n = copp cone.
Proof.
  intros h. unfold W. rewrite mult_INR. replace (2 * PI * INR n / (INR 2 * INR n)) with PI by (cbn [INR]; field; apply INR_pos; exact h).
  apply c_eq; cbn; [apply cos_PI|rewrite sin_PI; ring].
Qed.
Lemma W_1_pow n k : (0 < n)%nat -> forall d, W n (k * d) *c W n d = W n (S k * d).
Proof. intros h d. rewrite <- W_add by exact h. f_equal. lia. Qed.
Lemma W_not_1 n d : (0 < d < n)%nat -> W n d <> cone.
Proof.
  intros h e. unfold W, cexp, cone in e. injection e as e1 _.
  set (t := 2 * PI * INR d / INR n) in *. assert (hn : 0 < INR n) by (apply lt_0_INR; lia). assert (hd : 0 < INR d) by (apply lt_0_INR; lia). assert (hdn : INR d < INR n) by (apply lt_INR; lia).
  assert (ht : t / 2 = PI * (INR d / INR n)) by (unfold t; field; lra). pose proof PI_RGT_0.
  assert (0 < INR d / INR n) by (apply Rdiv_lt_0_compat; assumption). assert (INR d / INR n < 1) by (apply (Rmult_lt_reg_r (INR n)); [assumption|]; unfold Rdiv; rewrite Rmult_assoc, Rinv_l by lra; lra).
  assert (hs : 0 < sin (t / 2)) by (rewrite ht; apply sin_gt_0; nra).
  replace t with (2 * (t / 2)) in e1 by field. rewrite cos_2a_sin in e1. nra.
Qed.
(** sums of powers of a root of unity *)
Lemma W_orthogonal n d : (0 < d < n)%nat -> csum n (fun k => W n (k * d)) = czero.
Proof.
  intros h. assert (hn : (0 < n)%nat) by lia.
  assert (e : (W n d -c cone) *c csum n (fun k => W n (k * d)) = czero).
  { assert (g : forall m, (W n d -c cone) *c csum m (fun k => W n (k * d)) = W n (m * d) -c cone).
    { induction m as [|m IH]; cbn [csum]; [rewrite Nat.mul_0_l, W_0; ring|].
      replace ((W n d -c cone) *c (csum m (fun k => W n (k * d)) +c W n (m * d))) with ((W n d -c cone) *c csum m (fun k => W n (k * d)) +c (W n d *c W n (m * d) -c W n (m * d))) by ring.
      rewrite IH, <- (W_1_pow n m hn d). ring. }
    rewrite g, W_full by exact hn. ring. }
  apply cmul_zero in e as [e|e]; [|exact e]. exfalso. apply (W_not_1 n d h). replace (W n d) with ((W n d -c cone) +c cone) by ring. rewrite e. ring.
Qed.

(** ** the transform of a sequence *)
Definition DFT (n : nat) (x : nat -> C) (k : nat) : C := csum n (fun j => x j *c W n (j * k)).
(** with conjugated roots *)
Definition Wc (n a : nat) : C := (fst (W n a), - snd (W n a)).
Lemma Wc_W n a : W n a *c Wc n a = cone.
Proof.
  apply c_eq; unfold Wc, W, cexp; cbn [fst snd cmul cone]; [|ring]. set (t := 2 * PI * INR a / INR n). pose proof (sin2_cos2 t) as h. unfold Rsqr in h. lra.
Qed.
Lemma W_neg n a b : (0 < n)%nat -> (a + b) mod n = 0%nat -> W n a = Wc n b.
Proof.
  intros h e. assert (e2 : W n a *c W n b = cone). { rewrite <- W_add by exact h. rewrite <- W_mod by exact h. rewrite e. apply W_0. }
  replace (W n a) with ((W n a *c W n b) *c Wc n b); [rewrite e2; ring|]. replace (W n a *c W n b *c Wc n b) with (W n a *c (W n b *c Wc n b)) by ring. rewrite Wc_W. ring.
Qed.
Lemma Wc_mod n a : (0 < n)%nat -> Wc n (a mod n) = Wc n a.
Proof. intros h. unfold Wc. rewrite W_mod by exact h. reflexivity. Qed.
Definition IDFT (n : nat) (x : nat -> C) (k : nat) : C := csum n (fun j => x j *c Wc n (j * k)).

Lemma mod_neg n k : (0 < n)%nat -> ((n - k mod n) + k) mod n = 0%nat.
Proof.
  intros h. pose proof (Nat.div_mod k n ltac:(lia)). pose proof (Nat.mod_upper_bound k n ltac:(lia)).
  replace (n - k mod n + k)%nat with (0 + (1 + k / n) * n)%nat by nia. rewrite Nat.mod_add by lia. apply Nat.mod_small. lia.
Qed.
(** orthogonality of two indexes *)
Lemma roots_sum n j k : (0 < n)%nat -> (j < n)%nat -> (k < n)%nat -> csum n (fun i => W n (i * j) *c Wc n (i * k)) = if (j =? k)%nat then (INR n, 0) else czero.
Proof.
  intros hn hj hk.
  rewrite (csum_ext n _ (fun i => W n (i * ((j + (n - k)) mod n)))).
  2: { intros i _. rewrite <- (W_mod n (i * ((j + (n - k)) mod n))) by exact hn. rewrite Nat.mul_mod_idemp_r by lia. rewrite W_mod by exact hn. rewrite Nat.mul_add_distr_l, W_add by exact hn. f_equal. symmetry. apply W_neg; [exact hn|].
       rewrite <- Nat.mul_add_distr_l. replace (n - k + k)%nat with n by lia. apply Nat.mod_mul. lia. }
  destruct (Nat.eqb_spec j k) as [->|hne].
  - replace ((k + (n - k)) mod n)%nat with 0%nat by (replace (k + (n - k))%nat with n by lia; symmetry; apply Nat.mod_same; lia).
    rewrite (csum_ext n _ (fun _ => cone)) by (intros; rewrite Nat.mul_0_r; apply W_0). clear. induction n; [reflexivity|]. cbn [csum]. rewrite IHn, S_INR. apply c_eq; cbn; ring.
  - apply W_orthogonal. split.
    + assert ((j + (n - k)) mod n <> 0)%nat; [|lia]. intros e. apply Nat.mod_divides in e as [c e]; [|lia]. assert (c = 0 \/ c = 1 \/ 2 <= c)%nat as [->|[->|]] by lia; nia.
    + apply Nat.mod_upper_bound. lia.
Qed.
Lemma IDFT_DFT n x k : (k < n)%nat -> IDFT n (DFT n x) k = (INR n, 0) *c x k.
Proof.
  intros hk. unfold IDFT, DFT. assert (hn : (0 < n)%nat) by lia.
  rewrite (csum_ext n _ (fun i => csum n (fun j => x j *c (W n (i * j) *c Wc n (i * k))))).
  2: { intros i _. rewrite (csum_ext n (fun j => x j *c (W n (i * j) *c Wc n (i * k))) (fun j => Wc n (i * k) *c (x j *c W n (j * i)))) by (intros j _; rewrite (Nat.mul_comm i j); ring). rewrite csum_scal. ring. }
  rewrite csum_swap. rewrite (csum_ext n _ (fun j => x j *c (if (j =? k)%nat then (INR n, 0) else czero))).
  2: { intros j hj. rewrite csum_scal. f_equal. apply roots_sum; assumption. }
  rewrite (csum_one n k); [rewrite Nat.eqb_refl; ring|exact hk|]. intros i _ hne. destruct (Nat.eqb_spec i k); [contradiction|ring].
Qed.
(** shifting the index of summation on a circle *)
Lemma csum_rotate n f : (0 < n)%nat -> csum n f = csum n (fun i => f ((i + 1) mod n)%nat).
Proof.
  intros h. destruct n as [|n]; [lia|]. rewrite csum_shift. cbn [csum]. replace ((n + 1) mod S n)%nat with 0%nat by (replace (n + 1)%nat with (S n) by lia; symmetry; apply Nat.mod_same; lia).
  rewrite (csum_ext n (fun i => f ((i + 1) mod S n)%nat) (fun i => f (S i))); [ring|]. intros i hi. rewrite Nat.mod_small by lia. f_equal. lia.
Qed.
Lemma csum_rotate_by n f s : (0 < n)%nat -> csum n f = csum n (fun i => f ((i + s) mod n)%nat).
Proof.
  intros h. induction s as [|s IH].
  - apply csum_ext. intros i hi. rewrite Nat.add_0_r, Nat.mod_small by exact hi. reflexivity.
  - rewrite IH. rewrite (csum_rotate n) by exact h. apply csum_ext. intros i hi. f_equal. rewrite Nat.add_mod_idemp_l by lia. f_equal. lia.
Qed.
Definition circular (n : nat) (x y : nat -> C) (k : nat) : C := csum n (fun j => x j *c y ((k + n - j) mod n)%nat).
Lemma DFT_circular n x y k : (0 < n)%nat -> DFT n (circular n x y) k = DFT n x k *c DFT n y k.
Proof.
  intros hn. unfold DFT at 1, circular.
  rewrite (csum_ext n _ (fun i => csum n (fun j => x j *c y ((i + n - j) mod n)%nat *c W n (i * k)))).
  2: { intros i _. rewrite (csum_ext n (fun j => x j *c y ((i + n - j) mod n)%nat *c W n (i * k)) (fun j => W n (i * k) *c (x j *c y ((i + n - j) mod n)%nat))) by (intros; ring). rewrite csum_scal. ring. }
  rewrite csum_swap. rewrite (csum_ext n _ (fun j => x j *c W n (j * k) *c DFT n y k)).
  2: { intros j hj. unfold DFT. rewrite (csum_rotate_by n (fun i => y i *c W n (i * k)) (n - j) hn). rewrite <- csum_scal. apply csum_ext. intros i hi.
       rewrite <- (W_mod n (((i + (n - j)) mod n) * k)) by exact hn. rewrite Nat.mul_mod_idemp_l by lia. rewrite W_mod by exact hn.
       replace (i + n - j)%nat with (i + (n - j))%nat by lia.
       replace (W n (i * k)) with (W n (j * k) *c W n ((i + (n - j)) * k)); [ring|]. rewrite <- W_add by exact hn. replace (j * k + (i + (n - j)) * k)%nat with (i * k + n * k)%nat by nia. apply W_period. exact hn. }
  rewrite (csum_ext n _ (fun j => DFT n y k *c (x j *c W n (j * k)))) by (intros; ring). rewrite csum_scal. unfold DFT. ring.
Qed.
Lemma IDFT_ext n x y k : (forall i, (i < n)%nat -> x i = y i) -> IDFT n x k = IDFT n y k.
Proof. intros h. apply csum_ext. intros i hi. rewrite h by exact hi. reflexivity. Qed.
Lemma DFT_ext n x y k : (forall i, (i < n)%nat -> x i = y i) -> DFT n x k = DFT n y k.
Proof. intros h. apply csum_ext. intros i hi. rewrite h by exact hi. reflexivity. Qed.
Lemma IDFT_product n x y k : (k < n)%nat -> IDFT n (fun i => DFT n x i *c DFT n y i) k = (INR n, 0) *c circular n x y k.
Proof.
  intros hk. rewrite <- IDFT_DFT by exact hk. apply IDFT_ext. intros i _. symmetry. apply DFT_circular. lia.
Qed.

(** ** decimation *)
Definition sub_dft (N s : nat) (x : nat -> C) (r k : nat) : C := csum N (fun j => x (r + s * j)%nat *c W N (j * k)).
Lemma sub_dft_period N s x r k : (0 < N)%nat -> sub_dft N s x r (k + N) = sub_dft N s x r k.
Proof. intros h. apply csum_ext. intros j _. f_equal. replace (j * (k + N))%nat with (j * k + N * j)%nat by lia. apply W_period. exact h. Qed.
Lemma sub_dft_split N s x r k : (0 < N)%nat -> sub_dft (2 * N) s x r k = sub_dft N (2 * s) x r k +c W (2 * N) k *c sub_dft N (2 * s) x (r + s) k.
Proof.
  intros h. unfold sub_dft at 1. rewrite csum_even_odd. f_equal.
  - apply csum_ext. intros j _. f_equal; [f_equal; lia|]. replace (2 * j * k)%nat with (j * k * 2)%nat by lia. rewrite (Nat.mul_comm 2 N). apply W_scale; lia.
  - unfold sub_dft. rewrite <- csum_scal. apply csum_ext. intros j _. replace (r + s * (2 * j + 1))%nat with (r + s + 2 * s * j)%nat by lia.
    replace (W (2 * N) ((2 * j + 1) * k)) with (W N (j * k) *c W (2 * N) k); [ring|]. rewrite <- (W_scale N (j * k) 2) by lia. rewrite (Nat.mul_comm N 2). rewrite <- W_add by lia. f_equal. lia.
Qed.
Lemma sub_dft_split_high N s x r k : (0 < N)%nat -> sub_dft (2 * N) s x r (k + N) = sub_dft N (2 * s) x r k -c W (2 * N) k *c sub_dft N (2 * s) x (r + s) k.
Proof. intros h. rewrite sub_dft_split, !sub_dft_period by exact h. rewrite W_add, W_half by lia. ring. Qed.
