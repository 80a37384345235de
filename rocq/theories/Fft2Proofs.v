(** Inverse transform, convolution and transforms of any length. *)
From Coq Require Import Reals Lra.
From Verif Require Import Base KerSpec KerProofs FftModel FftSpec FftBits FftComplex FftRunProofs FftProofs.
Open Scope R_scope.

(** a transform that either transforms or fails and changes nothing *)
Definition good : ((list nat -> bool) -> nat -> arrays -> option (bool * arrays)) -> nat -> ((nat -> C) -> nat -> C) -> Prop := good_of R.
(** ** inverse *)
Lemma sw_DFT n x k : sw R (DFT n (fun i => sw R (x i)) k) = IDFT n x k.
Proof.
  unfold DFT, IDFT. assert (h : forall m, sw R (csum m (fun j => sw R (x j) *c W n (j * k))) = csum m (fun j => x j *c Wc n (j * k))); [|apply h].
  induction m as [|m IH]; cbn [csum]; [reflexivity|]. rewrite <- IH. apply c_eq; unfold sw, Wc; cbn [fst snd cadd cmul]; ring. Qed.
Lemma inverse_good T n : good T n (DFT n) -> good (inverse_of R T) n (IDFT n).
Proof. intros h. apply (good_of_ext R _ _ _ _ (inverse_of_good R T n (DFT n) h)). intros x i hi. apply sw_DFT. Qed.

(** ** convolution *)
Notation conv_r := (conv_run R Rplus Rminus Rmult (fun x n => x / INR n)).
Lemma conv_circular n F X Y i : (forall x j, (j < n)%nat -> F x j = DFT n x j) -> (forall x y j, (j < n)%nat -> (forall k, (k < n)%nat -> x k = y k) -> DFT n x j = DFT n y j) -> (i < n)%nat ->
  conv_r n F X Y i = circular n X Y i.
Proof.
  intros hF he hi. unfold conv_run. cbv zeta. rewrite hF by exact hi.
  rewrite (he _ (fun j => sw R (DFT n X j *c DFT n Y j)) i hi). 2: { intros k hk. f_equal. rewrite !hF by exact hk. apply c_eq; unfold pmul; cbn [cmul fst snd]; ring. }
  rewrite sw_DFT, IDFT_product by exact hi. assert (INR n <> 0) by (apply INR_pos; lia). apply c_eq; cbn [cmul fst snd]; field; assumption.
Qed.
Lemma DFT_ext n x y j : (forall k, (k < n)%nat -> x k = y k) -> DFT n x j = DFT n y j.
Proof. intros h. unfold DFT. apply csum_ext. intros i hi. rewrite h by exact hi. reflexivity. Qed.
Lemma convolve_good T ok n x y out X Y : good T n (DFT n) -> sig x n X -> sig y n Y -> length (fst out) = n -> length (snd out) = n ->
  exists st out', convolve_complex T ok x y out n = Some (st, out') /\ (if (st : bool) then sig out' n (circular n X Y) else out' = out) /\ ((forall p, ok p = true) -> st = true).
Proof.
  intros hT hx hy h1 h2. destruct (convolve_of_good R Rplus Rminus Rmult Ropp 0 (fun x n => x / INR n) T ok n x y out X Y (DFT n) hT hx hy h1 h2) as (st & out' & e & h & k). exists st, out'. splits; auto.
  destruct st; [|exact h]. apply (sig_ext _ _ _ _ h). intros i hi. apply conv_circular; auto. intros. apply DFT_ext. assumption.
Qed.

(** ** Bluestein's algorithm *)
Lemma chirp_identity n j k : (0 < n)%nat -> forall d, (d = k - j \/ d = j - k)%nat -> (d <= j \/ d <= k)%nat -> (j = k + d \/ k = j + d)%nat ->
  W (2 * n) (j * j) *c Wc (2 * n) (d * d) *c W (2 * n) (k * k) = W n (j * k).
Proof.
  intros hn d _ _ hd. assert (e : W (2 * n) (j * j) *c W (2 * n) (k * k) = W n (j * k) *c W (2 * n) (d * d)).
  { rewrite <- (W_scale n (j * k) 2) by lia. rewrite (Nat.mul_comm n 2). rewrite <- !W_add by lia. f_equal. destruct hd; subst; nia. }
  replace (W (2 * n) (j * j) *c Wc (2 * n) (d * d) *c W (2 * n) (k * k)) with (W (2 * n) (j * j) *c W (2 * n) (k * k) *c Wc (2 * n) (d * d)) by ring.
  rewrite e. replace (W n (j * k) *c W (2 * n) (d * d) *c Wc (2 * n) (d * d)) with (W n (j * k) *c (W (2 * n) (d * d) *c Wc (2 * n) (d * d))) by ring. rewrite Wc_W. ring.
Qed.
Definition chirp_a (n : nat) (x : nat -> C) (i : nat) : C := if (i <? n)%nat then x i *c W (2 * n) (i * i) else czero.
Definition chirp_b (m k n : nat) (i : nat) : C :=
  if (i <? k)%nat then Wc (2 * n) (i * i) else if (m - k <? i)%nat then Wc (2 * n) ((m - i) * (m - i)) else czero.
Lemma chirp_circular n m x k : (0 < n)%nat -> (2 * n < m)%nat -> (k < n)%nat -> circular m (chirp_a n x) (chirp_b m n n) k *c W (2 * n) (k * k) = DFT n x k.
Proof.
  intros hn hm hk. unfold circular. replace m with (n + (m - n))%nat at 1 by lia. rewrite csum_app. rewrite (csum_zero_in (m - n)).
  2: { intros i _. unfold chirp_a. rewrite (proj2 (Nat.ltb_ge (n + i) n)) by lia. ring. }
  unfold DFT. match goal with |- (?s +c czero) *c ?w = _ => replace ((s +c czero) *c w) with (w *c s) by ring end. rewrite <- csum_scal. apply csum_ext. intros j hj.
  unfold chirp_a. rewrite (proj2 (Nat.ltb_lt j n) hj).
  assert (e : exists d, chirp_b m n n ((k + m - j) mod m) = Wc (2 * n) (d * d) /\ (j = k + d \/ k = j + d)%nat).
  { destruct (Nat.le_gt_cases j k) as [h|h].
    - exists (k - j)%nat. split; [|lia]. replace ((k + m - j) mod m)%nat with (k - j)%nat. 2: { replace (k + m - j)%nat with ((k - j) + 1 * m)%nat by lia. rewrite Nat.mod_add, Nat.mod_small by lia. reflexivity. }
      unfold chirp_b. rewrite (proj2 (Nat.ltb_lt (k - j) n)) by lia. reflexivity.
    - exists (j - k)%nat. split; [|lia]. rewrite Nat.mod_small by lia. unfold chirp_b. rewrite (proj2 (Nat.ltb_ge (k + m - j) n)), (proj2 (Nat.ltb_lt (m - n) (k + m - j))) by lia. f_equal. replace (m - (k + m - j))%nat with (j - k)%nat by lia. reflexivity. }
  destruct e as (d & e1 & e2). rewrite e1. rewrite <- (chirp_identity n j k hn d) by lia. ring.
Qed.

Lemma chirp_value n i : (0 < n)%nat -> W (2 * n) (i * i) = (cos (PI * INR ((i * i) mod (n * 2)) / INR n), - sin (PI * INR ((i * i) mod (n * 2)) / INR n)).
Proof.
  intros hn. rewrite <- W_mod by lia. unfold W, cexp. rewrite (Nat.mul_comm n 2).
  replace (2 * PI * INR ((i * i) mod (2 * n)) / INR (2 * n)) with (PI * INR ((i * i) mod (2 * n)) / INR n); [reflexivity|]. rewrite (mult_INR 2 n). cbn [INR]. field. apply INR_pos. exact hn.
Qed.
Notation chirp_r := (chirp R (fun i n => cos (PI * INR i / INR n)) (fun i n => sin (PI * INR i / INR n))).
Lemma chirp_twiddle n i z : (0 < n)%nat -> twiddle_r (chirp_r n i) z = z *c W (2 * n) (i * i).
Proof. intros h. rewrite chirp_value by exact h. unfold chirp. rewrite twiddle_exp. unfold cexp. apply c_eq; cbn [cmul fst snd]; ring. Qed.
Lemma chirp_conj n i : (0 < n)%nat -> chirp_r n i = Wc (2 * n) (i * i).
Proof. intros h. unfold Wc. rewrite chirp_value by exact h. unfold chirp. cbn [fst snd]. rewrite Ropp_involutive. reflexivity. Qed.
Notation first_r := (first_run R Rplus Rmult Ropp 0 (fun i n => cos (PI * INR i / INR n)) (fun i n => sin (PI * INR i / INR n))).
Notation second_r := (second_run R 0 (fun i n => cos (PI * INR i / INR n)) (fun i n => sin (PI * INR i / INR n))).
Notation bluestein_r := (bluestein_run R Rplus Rminus Rmult Ropp 0 (fun x n => x / INR n) (fun i n => cos (PI * INR i / INR n)) (fun i n => sin (PI * INR i / INR n))).
Lemma first_chirp n x i : (0 < n)%nat -> first_r n x i = chirp_a n x i.
Proof. intros h. unfold first_run, chirp_a. destruct (i <? n)%nat; [apply chirp_twiddle; exact h|reflexivity]. Qed.
Lemma second_chirp m n i : (0 < n)%nat -> second_r m n n i = chirp_b m n n i.
Proof. intros h. unfold second_run, chirp_b. destruct (i <? n)%nat; [apply chirp_conj; exact h|]. destruct (m - n <? i)%nat; [apply chirp_conj; exact h|reflexivity]. Qed.
Lemma circular_ext n x y x' y' k : (0 < n)%nat -> (forall i, (i < n)%nat -> x i = x' i) -> (forall i, (i < n)%nat -> y i = y' i) -> circular n x y k = circular n x' y' k.
Proof. intros h hx hy. unfold circular. apply csum_ext. intros j hj. rewrite hx by exact hj. rewrite hy by (apply Nat.mod_upper_bound; lia). reflexivity. Qed.
Lemma bluestein_dft n L x i : (0 < n)%nat -> (2 * n < 2 ^ L)%nat -> (i < n)%nat -> bluestein_r n (2 ^ L) (level_r L L) x i = DFT n x i.
Proof.
  intros hn hm hi. unfold bluestein_run. rewrite chirp_twiddle by exact hn. rewrite <- (chirp_circular n (2 ^ L) x i hn hm hi). f_equal.
  rewrite conv_circular; [|intros; apply level_all; assumption|intros; apply DFT_ext; assumption|lia].
  apply circular_ext; [lia|intros; apply first_chirp; exact hn|intros; apply second_chirp; exact hn].
Qed.

Section Fft.
Variable junk : nat -> list R.
Hypothesis junk_length : forall n, length (junk n) = n.
(** ** any length *)
Lemma transform_good depth n : good (transform junk (S depth)) n (DFT n).
Proof.
  unfold good, transform. destruct (Nat.eq_dec n 0) as [->|hn]; [apply transform_zero_of; exact junk_length|]. destruct (Nat.eq_dec (Nat.land n (n - 1)) 0) as [e|e].
  - apply pow2_test in e as [L ->]; [|lia]. eapply good_of_ext; [apply transform_pow2_of; exact junk_length|]. intros x i hi. apply level_all. exact hi.
  - assert (h0 : (0 < n)%nat) by lia.
    match goal with |- good_of R (transform_of R ?z ?a ?s ?m ?ng ?o ?c1 ?c2 ?c3 ?c4 _ _) _ _ => destruct (transform_other_of R a s m ng z o c1 c2 c3 c4 junk junk_length depth _ h0 e) as (L & hL & h) end.
    apply (good_of_ext R _ _ _ _ h). intros x i hi. apply bluestein_dft; lia.
Qed.
End Fft.
