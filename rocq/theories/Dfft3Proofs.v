(** Rounding errors of the transform for other lengths *)
From Coq Require Import ZArith Reals List Bool Lia Lra Psatz.
From Flocq Require Import Core BinarySingleNaN.
From Verif Require Import Base DblModel DblSpec DblProofs Dbl2Proofs DlineProofs KerSpec KerProofs PiProofs FftModel FftSpec FftBits FftComplex FftRunProofs FftProofs Fft2Proofs CmodProofs DfftModel DfftSpec DfftProofs Dfft2Proofs.
Open Scope R_scope.

(** ** the composition of the error bounds *)
Section Arithmetic.
(** [t]: relative error of a transform of a power of two, [s]: of a product with a table entry, [h]: underflow, [N]: length, [S]: sum of magnitudes *)
Variable t s h N S : R.
Hypothesis t_range : 0 <= t <= / 1000.
Hypothesis s_range : 0 <= s <= t / 6.
Hypothesis N_range : 1 <= N.
Hypothesis S_range : 0 <= S.
Hypothesis h_range : 0 < h.
Hypothesis h_small : 48 * N * h <= 6 / 100 * t.
Lemma N_powers : N <= N * N /\ N * N <= N * N * N /\ h <= N * h /\ N * h <= N * N * h /\ N * N * h <= N * N * N * h.
Proof.
  assert (h1 : N <= N * N) by nra. assert (h2 : N * N <= N * N * N) by (rewrite <- (Rmult_1_r (N * N)) at 1; apply Rmult_le_compat_l; nra). splits; auto.
  - rewrite <- (Rmult_1_l h) at 1. apply Rmult_le_compat_r; lra.
  - apply Rmult_le_compat_r; lra.
  - apply Rmult_le_compat_r; lra.
Qed.
Definition err_a : R := 12 / 10 * t * S + 60 * (N * N * h).
Definition err_b : R := 24 / 10 * (N * t).
Definition err_c : R := 49 / 10 * (N * t * S) + 130 * (N * N * N * h).
Lemma step_a l : l <= 48 * (N * N * h) -> t * ((1 + s) * S + 6 * (N * h)) + l + (s * S + 6 * (N * h)) <= err_a.
Proof.
  intros hl. unfold err_a. destruct N_powers as (p1 & p2 & p3 & p4 & p5). assert (a1 : s * S <= t / 6 * S) by (apply Rmult_le_compat_r; lra). assert (a0 : 0 <= s * S) by (apply Rmult_le_pos; lra).
  assert (a2 : t * (s * S) <= / 1000 * (s * S)) by (apply Rmult_le_compat_r; lra). assert (a3 : t * (N * h) <= / 1000 * (N * h)) by (apply Rmult_le_compat_r; lra). assert (0 <= t * S) by (apply Rmult_le_pos; lra). lra.
Qed.
Lemma step_b l : l <= 48 * (N * N * h) -> t * (2 * N * (1 + s)) + l + 2 * N * s <= err_b.
Proof.
  intros hl. unfold err_b. assert (a1 : N * s <= N * (t / 6)) by (apply Rmult_le_compat_l; lra). assert (a0 : 0 <= N * s) by (apply Rmult_le_pos; lra).
  assert (a2 : t * (N * s) <= / 1000 * (N * s)) by (apply Rmult_le_compat_r; lra). assert (a3 : N * (48 * N * h) <= N * (6 / 100 * t)) by (apply Rmult_le_compat_l; lra). assert (0 <= N * t) by (apply Rmult_le_pos; lra). lra.
Qed.
Lemma err_a_pos : 0 <= err_a.
Proof. unfold err_a. assert (0 <= t * S) by (apply Rmult_le_pos; lra). assert (0 <= N * N * h) by (apply Rmult_le_pos; nra). lra. Qed.
Lemma err_b_pos : 0 <= err_b <= 24 / 10000 * N.
Proof. unfold err_b. assert (0 <= N * t) by (apply Rmult_le_pos; lra). assert (N * t <= N * / 1000) by (apply Rmult_le_compat_l; lra). lra. Qed.
Lemma step_c v : 0 <= v <= 15 / 1000 * t -> err_a * (2 * N + err_b) + S * err_b + v * ((S + err_a) * (2 * N + err_b)) + 6 * h <= err_c.
Proof.
  intros hv. pose proof err_a_pos as ha. pose proof err_b_pos as hb. destruct N_powers as (p1 & p2 & p3 & p4 & p5).
  assert (hN : 2 * N + err_b <= 20024 / 10000 * N) by lra.
  assert (b1 : err_a * (2 * N + err_b) <= err_a * (20024 / 10000 * N)) by (apply Rmult_le_compat_l; lra).
  assert (b2 : (S + err_a) * (2 * N + err_b) <= (S + err_a) * (20024 / 10000 * N)) by (apply Rmult_le_compat_l; lra).
  assert (b3 : v * ((S + err_a) * (2 * N + err_b)) <= (15 / 1000 * t) * ((S + err_a) * (20024 / 10000 * N))). { apply Rmult_le_compat; try lra. apply Rmult_le_pos; lra. }
  assert (c0 : 0 <= N * t * S) by (apply Rmult_le_pos; [apply Rmult_le_pos|]; lra).
  assert (e1 : err_a * N = 12 / 10 * (N * t * S) + 60 * (N * N * N * h)) by (unfold err_a; ring).
  assert (b4 : t * ((S + err_a) * N) <= N * t * S + / 1000 * (err_a * N)). { replace (t * ((S + err_a) * N)) with (N * t * S + t * (err_a * N)) by ring. apply Rplus_le_compat_l. apply Rmult_le_compat_r; [apply Rmult_le_pos; lra|lra]. }
  assert (e2 : S * err_b = 24 / 10 * (N * t * S)) by (unfold err_b; ring). unfold err_c. lra.
Qed.
Definition err_q : R := 691 / 100 * (N * t * S) + 143 * (N * N * N * h).
Lemma err_c_pos : 0 <= err_c.
Proof. unfold err_c. assert (0 <= N * t * S) by (apply Rmult_le_pos; [apply Rmult_le_pos|]; lra). destruct N_powers as (p1 & p2 & p3 & p4 & p5). lra. Qed.
Lemma step_q l : l <= 12 * (N * h) -> t * (2 * N * S + err_c) + l + err_c <= err_q.
Proof.
  intros hl. pose proof err_c_pos as hc. assert (b : t * err_c <= / 1000 * err_c) by (apply Rmult_le_compat_r; lra). assert (c0 : 0 <= N * t * S) by (apply Rmult_le_pos; [apply Rmult_le_pos|]; lra).
  destruct N_powers as (p1 & p2 & p3 & p4 & p5). unfold err_q. unfold err_c in *. lra.
Qed.
Lemma err_q_pos : 0 <= err_q.
Proof. unfold err_q. assert (0 <= N * t * S) by (apply Rmult_le_pos; [apply Rmult_le_pos|]; lra). destruct N_powers as (p1 & p2 & p3 & p4 & p5). lra. Qed.
Lemma step_last v : 0 <= v <= 15 / 1000 * t ->
  let e := err_q + (v * (S + err_q) + 2 * h) in e + s * (S + e) + 6 * h <= 8 * (N * t * S) + 160 * (N * N * N * h).
Proof.
  intros hv e. pose proof err_q_pos as hq. destruct N_powers as (p1 & p2 & p3 & p4 & p5). assert (c0 : 0 <= N * t * S) by (apply Rmult_le_pos; [apply Rmult_le_pos|]; lra). assert (c1 : 0 <= t * S) by (apply Rmult_le_pos; lra).
  assert (c2 : t * S <= N * t * S) by (replace (N * t * S) with (N * (t * S)) by ring; rewrite <- (Rmult_1_l (t * S)) at 1; apply Rmult_le_compat_r; lra).
  assert (b1 : v * (S + err_q) <= 15 / 1000 * t * (S + err_q)) by (apply Rmult_le_compat_r; lra). assert (b2 : t * err_q <= / 1000 * err_q) by (apply Rmult_le_compat_r; lra).
  assert (b0 : 0 <= v * (S + err_q)) by (apply Rmult_le_pos; lra). assert (he : 0 <= e) by (unfold e; lra).
  assert (b3 : s * (S + e) <= t / 6 * S + / 6000 * e). { rewrite Rmult_plus_distr_l. apply Rplus_le_compat; apply Rmult_le_compat_r; lra. }
  assert (e1 : e <= 1001 / 1000 * err_q + 15 / 1000 * (t * S) + 2 * h) by (unfold e; lra). unfold err_q in *. lra.
Qed.
End Arithmetic.

Lemma rsumf_app a b f : rsumf (a + b) f = rsumf a f + rsumf b (fun i => f (a + i)%nat).
Proof. induction b as [|b IH]; [rewrite Nat.add_0_r; cbn [rsumf]; lra|]. rewrite Nat.add_succ_r. cbn [rsumf]. rewrite IH. lra. Qed.
Lemma rsumf_ends n m f c : (2 * n <= m)%nat -> (forall i, (i < m)%nat -> f i <= c) -> (forall i, (n <= i < m - n)%nat -> f i <= 0) -> rsumf m f <= 2 * INR n * c.
Proof.
  intros hm h1 h2. replace m with (n + ((m - 2 * n) + n))%nat by lia. rewrite !rsumf_app.
  assert (a1 : rsumf n f <= INR n * c) by (rewrite <- rsumf_const; apply rsumf_le; intros; apply h1; lia).
  assert (a2 : rsumf (m - 2 * n) (fun i => f (n + i)%nat) <= INR (m - 2 * n) * 0) by (rewrite <- rsumf_const; apply rsumf_le; intros; apply h2; lia).
  assert (a3 : rsumf n (fun i => f (n + (m - 2 * n + i))%nat) <= INR n * c) by (rewrite <- rsumf_const; apply rsumf_le; intros; apply h1; lia). lra.
Qed.
Lemma rsumf_plus n f g : rsumf n (fun i => f i + g i) = rsumf n f + rsumf n g.
Proof. induction n as [|n IH]; cbn [rsumf]; [lra|]. rewrite IH. lra. Qed.
Lemma rsumf_scal n c f : rsumf n (fun i => c * f i) = c * rsumf n f.
Proof. induction n as [|n IH]; cbn [rsumf]; [lra|]. rewrite IH. lra. Qed.
Lemma rsumf_pos n f : (forall i, 0 <= f i) -> 0 <= rsumf n f.
Proof. intros h. induction n as [|n IH]; cbn [rsumf]; [lra|]. pose proof (h n). lra. Qed.

Section Bluestein.
Variable d : R.
Variable fcos fsin : f64 -> f64.
Hypothesis libm : libm_within d fcos fsin.
Hypothesis d_range : 0 <= d <= / 1000000.
Notation level64 := (level_run f64 fadd fsub fmul fneg (fun i n => fcos (angle_turn i n)) (fun i n => fsin (angle_turn i n))).
Notation chirp64 := (chirp f64 (fun i n => fcos (angle_half i n)) (fun i n => fsin (angle_half i n))).
Notation first64 := (first_run f64 fadd fmul fneg fzero (fun i n => fcos (angle_half i n)) (fun i n => fsin (angle_half i n))).
Notation second64 := (second_run f64 fzero (fun i n => fcos (angle_half i n)) (fun i n => fsin (angle_half i n))).
Notation over64 := (fun x n => fdiv x (f_of_nat n)).
Notation conv64 := (conv_run f64 fadd fsub fmul over64).
Notation bluestein64 := (bluestein_run f64 fadd fsub fmul fneg fzero over64 (fun i n => fcos (angle_half i n)) (fun i n => fsin (angle_half i n))).
Variable n L : nat.
Hypothesis n_range : (3 <= n)%nat.
Hypothesis n_small : (Z.of_nat n < 2 ^ 32)%Z.
Hypothesis L_range : (2 * n < 2 ^ L <= 4 * n)%nat.
Notation m := (2 ^ L)%nat.
Variable x : nat -> P64.
Hypothesis x_fin : forall i, (i < n)%nat -> fin2 (x i).
Notation X := (fun i => val (x i)).
Notation S := (rsumf n (fun i => cmod (val (x i)))).
Hypothesis S_small : S <= B 900.
Notation r2 := (56 * u + 3 * d).
Notation th := (2 * INR L * (56 * u + 3 * d)).
Notation N := (INR n).

Lemma L_bounds : (3 <= L <= 34)%nat.
Proof.
  split.
  - destruct L as [|[|[|l]]]; [cbn in L_range; lia|cbn in L_range; lia|cbn in L_range; lia|lia].
  - destruct (Nat.le_gt_cases L 34) as [h|h]; [exact h|]. exfalso. assert (h2 : (2 ^ 35 <= Z.of_nat (2 ^ L))%Z) by (rewrite Nat2Z.inj_pow; apply Z.pow_le_mono_r; lia). lia.
Qed.
Lemma L_real : 3 <= INR L <= 34.
Proof. destruct L_bounds as [h1 h2]. split; [replace 3 with (INR 3) by (cbn; lra); apply le_INR; exact h1|]. apply le_INR in h2. replace 34 with (INR 34); [exact h2|]. rewrite INR_IZR_INZ. reflexivity. Qed.
Lemma r2_range : 0 < r2 <= / 300000.
Proof. pose proof u_pos. pose proof (u_bound 1000000000 ltac:(lia) ltac:(intro; discriminate)). lra. Qed.
Lemma th_range : 0 <= th <= / 1000 /\ 6 * r2 <= th.
Proof. pose proof L_real. pose proof r2_range. assert (3 * r2 <= INR L * r2) by (apply Rmult_le_compat_r; lra). assert (INR L * r2 <= 34 * r2) by (apply Rmult_le_compat_r; lra). lra. Qed.
Lemma eps_range : 0 <= d + 16 * u <= / 10.
Proof. pose proof r2_range. pose proof u_pos. lra. Qed.
Lemma N_real : 1 <= N <= B 32.
Proof. split; [change 1 with (INR 1); apply le_INR; lia|]. rewrite INR_IZR_INZ, <- (IZR_pow2 32) by lia. apply IZR_le. lia. Qed.
Lemma m_real : 2 * N <= INR m <= 4 * N.
Proof. split; [replace 2 with (INR 2) by (cbn; lra)|replace 4 with (INR 4) by (cbn; lra)]; rewrite <- mult_INR; apply le_INR; lia. Qed.
Lemma S_pos : 0 <= S.
Proof. apply rsumf_pos. intros i. apply cmod_pos. Qed.
Lemma chirp_near i : near_turn (d + 16 * u) (chirp64 n i) (chirp_r n i).
Proof.
  pose proof (Nat.mod_upper_bound (i * i) (n * 2) ltac:(lia)) as hm. destruct (half_ok d fcos fsin libm ((i * i) mod (n * 2)) n) as (h1 & h2 & h3 & h4); [lia|lia|lia|].
  unfold near_turn, fin2, chirp. cbn [fst snd]. splits; auto.
  pose proof (cmod_exp (PI * INR ((i * i) mod (n * 2)) / N)) as e. rewrite <- e. unfold cmod, cexp. f_equal. cbn [fst snd]. ring.
Qed.
Lemma val_zero : val (fzero, fzero) = czero. Proof. reflexivity. Qed.
Lemma fin_zero : fin2 (fzero, fzero). Proof. split; reflexivity. Qed.
Lemma S_term i : (i < n)%nat -> cmod (val (x i)) <= S.
Proof.
  intros hi. replace n with (i + (1 + (n - 1 - i)))%nat by lia. rewrite !rsumf_app. cbn [rsumf]. rewrite Nat.add_0_r.
  pose proof (rsumf_pos i (fun i => cmod (val (x i))) (fun i => cmod_pos _)). pose proof (rsumf_pos (n - 1 - i) (fun j => cmod (val (x (i + (1 + j))%nat))) (fun i => cmod_pos _)). lra.
Qed.
Lemma first_near i : fin2 (first64 n x i) /\ cmod (val (first64 n x i) -c first_r n X i) <= (if (i <? n)%nat then r2 * cmod (val (x i)) + 6 * eta else 0) /\ cmod (first_r n X i) = (if (i <? n)%nat then cmod (val (x i)) else 0).
Proof.
  unfold first_run. destruct (Nat.ltb_spec i n) as [h|h].
  - pose proof (cmod_pos (val (x i))) as hp. destruct (twiddle_near (d + 16 * u) (chirp64 n i) (chirp_r n i) (x i) (val (x i)) 0 (cmod (val (x i))) eps_range (chirp_near i) (x_fin i h)) as [h1 h2].
    + replace (val (x i) -c val (x i)) with czero by csolve. rewrite cmod_0. lra.
    + lra.
    + pose proof (S_term i h). pose proof (bpow_le radix2 900 1016 ltac:(lia)). lra.
    + splits; [exact h1| |rewrite twiddle_mod; destruct (chirp_near i) as (_ & _ & _ & ->); lra].
      eapply Rle_trans; [exact h2|]. pose proof u_pos. assert ((6 * u + 2 * (d + 16 * u)) * (cmod (val (x i)) + 0) <= r2 * (cmod (val (x i)) + 0)) by (apply Rmult_le_compat_r; lra). lra.
  - splits; [exact fin_zero| |exact cmod_0]. unfold pzero. rewrite val_zero. replace (czero -c (0, 0)) with czero by csolve. rewrite cmod_0. lra.
Qed.
Lemma second_near i : fin2 (second64 m n n i) /\ cmod (val (second64 m n n i) -c second_r m n n i) <= r2 /\ cmod (second_r m n n i) <= 1 /\
  ((n <= i < m - n)%nat -> val (second64 m n n i) = czero /\ second_r m n n i = czero).
Proof.
  pose proof r2_range as hr. pose proof u_pos as hu.
  assert (hc : forall j, fin2 (chirp64 n j) /\ cmod (val (chirp64 n j) -c chirp_r n j) <= r2 /\ cmod (chirp_r n j) <= 1).
  { intros j. destruct (near_turn_mod _ _ _ eps_range (chirp_near j)) as [h1 _]. destruct (chirp_near j) as (h2 & _ & _ & h3). splits; auto; [|rewrite h3; lra]. lra. }
  unfold second_run. destruct (Nat.ltb_spec i n) as [h|h]; [destruct (hc i) as (h1 & h2 & h3); splits; auto; lia|]. destruct (Nat.ltb_spec (m - n) i) as [h'|h'].
  - destruct (hc (m - i)%nat) as (h1 & h2 & h3). splits; auto; lia.
  - unfold pzero. rewrite val_zero. splits; auto; [exact fin_zero| |].
    + replace (czero -c (0, 0)) with czero by csolve. rewrite cmod_0. lra.
    + change (0, 0) with czero. rewrite cmod_0. lra.
Qed.
(** a transform of an approximate signal *)
Lemma DFT_total (z' : nat -> P64) (z : nat -> C) D T : (forall i, (i < m)%nat -> fin2 (z' i)) -> rsumf m (fun i => cmod (val (z' i) -c z i)) <= D -> rsumf m (fun i => cmod (val (z' i))) <= T -> T <= B 1008 -> forall i, (i < m)%nat ->
  fin2 (level64 L L z' i) /\ cmod (val (level64 L L z' i) -c DFT m z i) <= th * T + 3 * eta * (INR m * INR m) + D.
Proof.
  intros hf hD hT hb i hi. destruct L_bounds as [_ hL]. destruct (radix2_near d fcos fsin libm d_range L z' ltac:(lia) hf ltac:(lra) i hi) as [h1 h2]. split; [exact h1|].
  pose proof (DFT_near m (fun j => val (z' j)) z i) as h3. pose proof (cmod_via _ _ _ _ _ h2 h3) as h4. eapply Rle_trans; [exact h4|]. unfold rho.
  assert (0 <= rsumf m (fun j => cmod (val (z' j)))) by (apply rsumf_pos; intros; apply cmod_pos). pose proof L_real. pose proof u_pos.
  assert (2 * INR L * (32 * u + 3 * d) * rsumf m (fun j => cmod (val (z' j))) <= th * T). { apply Rmult_le_compat; try lra; [apply Rmult_le_pos; lra|]. apply Rmult_le_compat_l; lra. } lra.
Qed.
Lemma sum_near (z' : nat -> P64) (z : nat -> C) k D T : rsumf k (fun i => cmod (val (z' i) -c z i)) <= D -> rsumf k (fun i => cmod (z i)) <= T -> rsumf k (fun i => cmod (val (z' i))) <= T + D.
Proof.
  intros h1 h2. eapply Rle_trans; [apply (rsumf_le k _ (fun i => cmod (z i) + cmod (val (z' i) -c z i)))|rewrite rsumf_plus; lra]. intros i _. apply cmod_near. lra.
Qed.
Lemma first_sums : rsumf m (fun i => cmod (val (first64 n x i) -c first_r n X i)) <= r2 * S + 6 * (N * eta) /\ rsumf m (fun i => cmod (first_r n X i)) <= S.
Proof.
  replace m with (n + (m - n))%nat by lia. rewrite !rsumf_app. split.
  - assert (a1 : rsumf n (fun i => cmod (val (first64 n x i) -c first_r n X i)) <= rsumf n (fun i => r2 * cmod (val (x i)) + 6 * eta)).
    { apply rsumf_le. intros i hi. destruct (first_near i) as (_ & h & _). rewrite (proj2 (Nat.ltb_lt i n) hi) in h. exact h. }
    assert (a2 : rsumf (m - n) (fun i => cmod (val (first64 n x (n + i)) -c first_r n X (n + i))) <= rsumf (m - n) (fun _ => 0)).
    { apply rsumf_le. intros i hi. destruct (first_near (n + i)) as (_ & h & _). rewrite (proj2 (Nat.ltb_ge (n + i) n)) in h by lia. exact h. }
    rewrite rsumf_const in a2. rewrite rsumf_plus, rsumf_scal, rsumf_const in a1. lra.
  - assert (a1 : rsumf n (fun i => cmod (first_r n X i)) <= S).
    { apply rsumf_le. intros i hi. destruct (first_near i) as (_ & _ & h). rewrite (proj2 (Nat.ltb_lt i n) hi) in h. lra. }
    assert (a2 : rsumf (m - n) (fun i => cmod (first_r n X (n + i))) <= rsumf (m - n) (fun _ => 0)).
    { apply rsumf_le. intros i hi. destruct (first_near (n + i)) as (_ & _ & h). rewrite (proj2 (Nat.ltb_ge (n + i) n)) in h by lia. lra. }
    rewrite rsumf_const in a2. lra.
Qed.
Lemma second_sums : rsumf m (fun i => cmod (val (second64 m n n i) -c second_r m n n i)) <= 2 * N * r2 /\ rsumf m (fun i => cmod (second_r m n n i)) <= 2 * N * 1.
Proof.
  split; apply rsumf_ends; try lia; intros i hi; destruct (second_near i) as (_ & h1 & h2 & h3); try assumption; destruct (h3 hi) as [e1 e2].
  - rewrite e1, e2. replace (czero -c czero) with czero by csolve. rewrite cmod_0. lra.
  - rewrite e2, cmod_0. lra.
Qed.
Notation A' := (level64 L L (first64 n x)).
Notation A := (DFT m (first_r n X)).
Notation B' := (level64 L L (second64 m n n)).
Notation Bx := (DFT m (second_r m n n)).
Notation ea := (err_a th eta N S).
Notation eb := (err_b th N).
Notation ec := (err_c th eta N S).
Notation eq' := (err_q th eta N S).
Lemma hyp_s : 0 <= r2 <= th / 6. Proof. destruct th_range. pose proof r2_range. lra. Qed.
Lemma hyp_t : 0 <= th <= / 1000. Proof. apply th_range. Qed.
Lemma hyp_h : 48 * N * eta <= 6 / 100 * th.
Proof.
  pose proof N_real. pose proof hyp_s. pose proof u_pos. pose proof eta_pos. assert (h : N * eta <= B 32 * eta) by (apply Rmult_le_compat_r; lra). rewrite <- bpow_plus in h.
  assert (h2 : B (32 + -1022) <= B (-53 + -10)) by (apply bpow_le; lia). rewrite (bpow_plus _ (-53)), <- u_val in h2. change (B (-10)) with (/ 1024) in h2. lra.
Qed.
Lemma lam_m : 3 * eta * (INR m * INR m) <= 48 * (N * N * eta).
Proof. pose proof m_real. pose proof N_real. pose proof eta_pos. assert (INR m * INR m <= (4 * N) * (4 * N)) by (apply Rmult_le_compat; lra). assert (3 * eta * (INR m * INR m) <= 3 * eta * ((4 * N) * (4 * N))) by (apply Rmult_le_compat_l; lra). lra. Qed.
Lemma S_room : S + 1 <= B 901. Proof. pose proof (big_room 900 901 ltac:(lia)). assert (1 <= B 900) by (change 1 with (B 0); apply bpow_le; lia). lra. Qed.
Lemma N_eta : N * N * N * eta <= / 1000000.
Proof.
  pose proof N_real. pose proof eta_pos. assert (N * N <= B 32 * B 32) by (apply Rmult_le_compat; lra). assert (N * N * N <= B 32 * B 32 * B 32) by (apply Rmult_le_compat; nra). assert (h : N * N * N * eta <= B 32 * B 32 * B 32 * eta) by (apply Rmult_le_compat_r; lra).
  rewrite <- !bpow_plus in h. assert (h2 : B (32 + 32 + 32 + -1022) <= B (-20)) by (apply bpow_le; lia). change (B (-20)) with (/ 1048576) in h2. lra.
Qed.
Lemma powers : N <= N * N /\ N * N <= N * N * N /\ eta <= N * eta /\ N * eta <= N * N * eta /\ N * N * eta <= N * N * N * eta.
Proof. apply N_powers; [exact (proj1 N_real)|exact eta_pos]. Qed.
Lemma a_near i : (i < m)%nat -> fin2 (A' i) /\ cmod (val (A' i) -c A i) <= ea /\ cmod (A i) <= S.
Proof.
  intros hi. destruct first_sums as [h1 h2]. pose proof (sum_near _ _ _ _ _ h1 h2) as h3. pose proof S_pos. pose proof r2_range. pose proof N_real. pose proof eta_pos. destruct powers as (p1 & p2 & p3 & p4 & p5). pose proof N_eta.
  destruct (DFT_total (first64 n x) (first_r n X) _ _ (fun i _ => proj1 (first_near i)) h1 h3) with (i := i) as [f e]; [|exact hi|].
  - assert (r2 * S <= 1 * S) by (apply Rmult_le_compat_r; lra). pose proof S_room. pose proof (big_room 901 902 ltac:(lia)). pose proof (bpow_le radix2 902 1008 ltac:(lia)). lra.
  - splits; [exact f| |eapply Rle_trans; [apply cmod_DFT|exact h2]]. eapply Rle_trans; [exact e|]. pose proof (step_a th r2 eta N S hyp_t hyp_s (proj1 N_real) S_pos eta_pos _ lam_m) as hs. replace ((1 + r2) * S + 6 * (N * eta)) with (S + (r2 * S + 6 * (N * eta))) in hs by ring. exact hs.
Qed.
Lemma b_near i : (i < m)%nat -> fin2 (B' i) /\ cmod (val (B' i) -c Bx i) <= eb /\ cmod (Bx i) <= 2 * N.
Proof.
  intros hi. destruct second_sums as [h1 h2]. pose proof (sum_near _ _ _ _ _ h1 h2) as h3. pose proof r2_range. pose proof N_real.
  destruct (DFT_total (second64 m n n) (second_r m n n) _ _ (fun i _ => proj1 (second_near i)) h1 h3) with (i := i) as [f e]; [|exact hi|].
  - assert (N * r2 <= N * 1) by (apply Rmult_le_compat_l; lra). pose proof (big_room 32 33 ltac:(lia)). pose proof (big_room 33 34 ltac:(lia)). pose proof (bpow_le radix2 34 1008 ltac:(lia)). lra.
  - splits; [exact f| |eapply Rle_trans; [apply cmod_DFT|]; lra]. eapply Rle_trans; [exact e|]. pose proof (step_b th r2 eta N hyp_t hyp_s (proj1 N_real) hyp_h _ lam_m) as hs. replace (2 * N * (1 + r2)) with (2 * N * 1 + 2 * N * r2) in hs by ring. exact hs.
Qed.
Lemma NS_pos : 0 <= N * th * S /\ N * th * S <= / 1000 * (N * S) /\ 0 <= N * S /\ th * S <= / 1000 * S.
Proof.
  pose proof hyp_t. pose proof S_pos. pose proof N_real. assert (0 <= N * S) by (apply Rmult_le_pos; lra). splits; auto.
  - apply Rmult_le_pos; [apply Rmult_le_pos|]; lra.
  - replace (N * th * S) with (th * (N * S)) by ring. apply Rmult_le_compat_r; lra.
  - apply Rmult_le_compat_r; lra.
Qed.
Lemma ea_small : 0 <= ea <= S + 1.
Proof. destruct NS_pos as (q1 & q2 & q3 & q4). destruct powers as (p1 & p2 & p3 & p4 & p5). pose proof N_eta. split; [apply err_a_pos; [exact hyp_t|exact S_pos|exact eta_pos]|]. unfold err_a. pose proof S_pos. lra. Qed.
Lemma eb_small : 0 <= eb <= N.
Proof. pose proof (err_b_pos th N hyp_t (proj1 N_real)). pose proof N_real. lra. Qed.
Lemma ec_small : 0 <= ec <= N * S + 1.
Proof. destruct NS_pos as (q1 & q2 & q3 & q4). pose proof N_eta. split; [apply err_c_pos; [exact hyp_t|exact (proj1 N_real)|exact S_pos|exact eta_pos]|]. unfold err_c. lra. Qed.
Lemma eq_small : 0 <= eq' <= N * S + 1.
Proof. destruct NS_pos as (q1 & q2 & q3 & q4). pose proof N_eta. split; [apply err_q_pos; [exact hyp_t|exact (proj1 N_real)|exact S_pos|exact eta_pos]|]. unfold err_q. lra. Qed.
Lemma NS_room : N * S + 1 <= B 933.
Proof.
  pose proof N_real. pose proof S_pos. assert (h : N * S <= B 32 * B 900) by (apply Rmult_le_compat; lra). rewrite <- bpow_plus in h. change (32 + 900)%Z with 932%Z in h. pose proof (big_room 932 933 ltac:(lia)). assert (1 <= B 932) by (change 1 with (B 0); apply bpow_le; lia). lra.
Qed.
Lemma hyp_v : 0 <= 5 * u <= 15 / 1000 * th.
Proof. destruct th_range as [_ h]. pose proof u_pos. lra. Qed.
Lemma c_near i : (i < m)%nat -> fin2 (pmul64 (A' i) (B' i)) /\ cmod (val (pmul64 (A' i) (B' i)) -c A i *c Bx i) <= ec /\ cmod (A i *c Bx i) <= 2 * (N * S).
Proof.
  intros hi. destruct (a_near i hi) as (fa & ha & ma). destruct (b_near i hi) as (fb & hb & mb). pose proof (cmod_near _ _ _ ha) as ha'. pose proof (cmod_near _ _ _ hb) as hb'.
  pose proof (cmod_pos (val (A' i))) as pa. pose proof (cmod_pos (val (B' i))) as pb. pose proof (cmod_pos (A i)) as pa'. pose proof (cmod_pos (Bx i)) as pb'. pose proof ea_small as sa. pose proof eb_small as sb. pose proof S_pos as sp. pose proof N_real as np. pose proof NS_room as room.
  assert (hp : cmod (val (A' i)) * cmod (val (B' i)) <= (S + ea) * (2 * N + eb)) by (apply Rmult_le_compat; lra).
  assert (hb18 : (S + ea) * (2 * N + eb) <= B 1018).
  { assert (h1 : (S + ea) * (2 * N + eb) <= (2 * S + 1) * (3 * N)) by (apply Rmult_le_compat; lra). pose proof (big_room 933 934 ltac:(lia)). pose proof (big_room 934 935 ltac:(lia)). pose proof (big_room 935 936 ltac:(lia)). pose proof (big_room 936 937 ltac:(lia)). pose proof (bpow_le radix2 937 1018 ltac:(lia)). pose proof (bpow_le radix2 32 933 ltac:(lia)). lra. }
  destruct (pmul_err _ _ fa fb ltac:(lra)) as [f e]. pose proof u_pos as hu. splits; [exact f| |rewrite cmod_mul; apply Rle_trans with (S * (2 * N)); [apply Rmult_le_compat; lra|lra]].
  assert (e2 : cmod (val (A' i) *c val (B' i) -c A i *c Bx i) <= ea * (2 * N + eb) + S * eb).
  { replace (val (A' i) *c val (B' i) -c A i *c Bx i) with ((val (A' i) -c A i) *c val (B' i) +c A i *c (val (B' i) -c Bx i)) by csolve. eapply Rle_trans; [apply cmod_add|]. rewrite !cmod_mul. pose proof (cmod_pos (val (A' i) -c A i)). pose proof (cmod_pos (val (B' i) -c Bx i)). apply Rplus_le_compat; apply Rmult_le_compat; lra. }
  pose proof (cmod_via _ _ _ _ _ e e2) as e3. eapply Rle_trans; [exact e3|].
  assert (5 * u * (cmod (val (A' i)) * cmod (val (B' i))) <= 5 * u * ((S + ea) * (2 * N + eb))) by (apply Rmult_le_compat_l; lra).
  pose proof (step_c th eta N S hyp_t (proj1 N_real) S_pos eta_pos (5 * u) hyp_v). lra.
Qed.
Lemma val_sw (z : P64) : val (sw f64 z) = sw R (val z). Proof. reflexivity. Qed.
Lemma sw_sub (a b : C) : cmod (sw R a -c sw R b) = cmod (a -c b).
Proof. unfold sw. replace ((snd a, fst a) -c (snd b, fst b)) with ((snd (a -c b), fst (a -c b)) : C) by reflexivity. apply cmod_sw. Qed.
Notation back := (level64 L L (fun j => sw f64 (pmul64 (A' j) (B' j)))).
Lemma circular_small i : cmod (circular m (first_r n X) (second_r m n n) i) <= S.
Proof.
  unfold circular. eapply Rle_trans; [apply cmod_csum|]. eapply Rle_trans; [|apply first_sums]. apply rsumf_le. intros j _. rewrite cmod_mul. destruct (second_near ((i + m - j) mod m)) as (_ & _ & h & _).
  pose proof (cmod_pos (first_r n X j)). rewrite <- (Rmult_1_r (cmod (first_r n X j))) at 2. apply Rmult_le_compat_l; assumption.
Qed.
Lemma back_near i : (i < m)%nat -> fin2 (back i) /\ cmod (sw R (val (back i)) -c (INR m, 0) *c circular m (first_r n X) (second_r m n n) i) <= INR m * eq'.
Proof.
  intros hi. pose proof m_real as hm. pose proof N_real as hN. pose proof ec_small as hc. pose proof S_pos as hS. pose proof eta_pos as he. pose proof NS_room as room. destruct NS_pos as (_ & _ & hns & _).
  set (Z' := fun j => sw f64 (pmul64 (A' j) (B' j))). set (Z := fun j => sw R (A j *c Bx j) : C).
  assert (h1 : rsumf m (fun j => cmod (val (Z' j) -c Z j)) <= INR m * ec). { rewrite <- rsumf_const. apply rsumf_le. intros j hj. unfold Z', Z. rewrite val_sw, sw_sub. apply c_near. exact hj. }
  assert (h2 : rsumf m (fun j => cmod (Z j)) <= INR m * (2 * (N * S))). { rewrite <- rsumf_const. apply rsumf_le. intros j hj. unfold Z, sw. rewrite cmod_sw. apply c_near. exact hj. }
  pose proof (sum_near _ _ _ _ _ h1 h2) as h3.
  destruct (DFT_total Z' Z _ _ (fun j hj => conj (proj2 (proj1 (c_near j hj))) (proj1 (proj1 (c_near j hj)))) h1 h3) with (i := i) as [f e]; [|exact hi|].
  - assert (b1 : INR m * (2 * (N * S) + ec) <= B 34 * B 935).
    { apply Rmult_le_compat; try lra; [pose proof (big_room 32 33 ltac:(lia)); pose proof (big_room 33 34 ltac:(lia)); lra|]. pose proof (big_room 933 934 ltac:(lia)). pose proof (big_room 934 935 ltac:(lia)). lra. }
    rewrite <- bpow_plus in b1. pose proof (bpow_le radix2 (34 + 935) 1008 ltac:(lia)). lra.
  - split; [exact f|]. rewrite <- IDFT_product by exact hi. rewrite <- sw_DFT. rewrite sw_sub. eapply Rle_trans; [exact e|].
    assert (hl : 3 * eta * INR m <= 12 * (N * eta)) by (assert (eta * INR m <= eta * (4 * N)) by (apply Rmult_le_compat_l; lra); lra).
    pose proof (step_q th eta N S hyp_t (proj1 N_real) S_pos eta_pos _ hl) as hq.
    replace (th * (INR m * (2 * (N * S)) + INR m * ec) + 3 * eta * (INR m * INR m) + INR m * ec) with (INR m * (th * (2 * N * S + ec) + 3 * eta * INR m + ec)) by ring. apply Rmult_le_compat_l; [lra|exact hq].
Qed.
Lemma over_near (z' : P64) (z : C) E : fin2 z' -> cmod (val z' -c (INR m, 0) *c z) <= INR m * E -> cmod z <= S -> S + E <= B 1000 ->
  let q := (fdiv (fst z') (f_of_nat m), fdiv (snd z') (f_of_nat m)) in fin2 q /\ cmod (val q -c z) <= E + (2 * u * (S + E) + 2 * eta).
Proof.
  intros [f1 f2] h1 h2 hb q. pose proof m_real as hm. pose proof N_real as hN. pose proof u_pos as hu. pose proof eta_pos as he.
  destruct (f_of_nat_ok m) as [fm em]. { destruct L_bounds as [_ hL]. rewrite Nat2Z.inj_pow. apply Z.pow_lt_mono_r; lia. }
  assert (hi : 0 < / INR m) by (apply Rinv_0_lt_compat; lra). set (w := (real (fst z') / INR m, real (snd z') / INR m) : C).
  assert (hw : cmod (w -c z) <= E).
  { replace (w -c z) with ((/ INR m, 0) *c (val z' -c (INR m, 0) *c z)) by (apply c_eq; unfold w; cbn [val csub cmul fst snd]; field; lra). rewrite cmod_mul, cmod_real, Rabs_pos_eq by lra.
    apply Rle_trans with (/ INR m * (INR m * E)); [apply Rmult_le_compat_l; lra|]. right. field. lra. }
  pose proof (cmod_near _ _ _ hw) as hw2. pose proof (cmod_fst w) as w1. pose proof (cmod_snd w) as w2. pose proof (bpow_le radix2 1000 1022 ltac:(lia)) as hb2. cbn [w fst snd] in w1, w2.
  destruct (fdiv_fin (fst z') (f_of_nat m) f1) as [g1 e1]; [rewrite em; lra|rewrite em; lra|]. destruct (fdiv_fin (snd z') (f_of_nat m) f2) as [g2 e2]; [rewrite em; lra|rewrite em; lra|].
  split; [split; assumption|]. rewrite em in e1, e2. pose proof (rnd_any (real (fst z') / INR m)) as r1. pose proof (rnd_any (real (snd z') / INR m)) as r2'. rewrite <- e1 in r1. rewrite <- e2 in r2'.
  assert (hq : cmod (val q -c w) <= (u * (S + E) + eta) + (u * (S + E) + eta)).
  { apply cmod_le_sum; cbn [val q w csub fst snd]; (eapply Rle_trans; [eassumption|]; apply Rplus_le_compat_r, Rmult_le_compat_l; lra). }
  pose proof (cmod_via _ _ _ _ _ hq hw). lra.
Qed.
Lemma bluestein_near i : (i < n)%nat ->
  fin2 (bluestein64 n m (level64 L L) x i) /\ cmod (val (bluestein64 n m (level64 L L) x i) -c DFT n X i) <= 16 * N * INR L * r2 * S + 160 * (N * N * N * eta).
Proof.
  intros hi. assert (him : (i < m)%nat) by lia. destruct (back_near i him) as [fb hb]. pose proof eq_small as hq. pose proof NS_room as room. pose proof S_room as sroom. pose proof S_pos as hS. pose proof u_pos as hu. pose proof eta_pos as he. pose proof eta_u as heu. pose proof (u_bound 1000 ltac:(lia) ltac:(intro; discriminate)) as hus.
  set (cc := circular m (first_r n X) (second_r m n n) i) in *. pose proof (circular_small i) as hc. fold cc in hc.
  destruct (over_near (sw f64 (back i)) cc eq') as [fq eq1].
  - destruct fb. split; assumption.
  - exact hb.
  - exact hc.
  - pose proof (bpow_le radix2 901 933 ltac:(lia)). pose proof (big_room 933 934 ltac:(lia)). pose proof (bpow_le radix2 934 1000 ltac:(lia)). lra.
  - set (e := eq' + (2 * u * (S + eq') + 2 * eta)) in *.
    assert (fq' : fin2 (conv64 m (level64 L L) (first64 n x) (second64 m n n) i)) by exact fq. assert (eq2 : cmod (val (conv64 m (level64 L L) (first64 n x) (second64 m n n) i) -c cc) <= e) by exact eq1.
    assert (e_small : e <= 3 * (B 933)). { assert (2 * u * (S + eq') <= / 500 * (S + eq')) by (apply Rmult_le_compat_r; lra). pose proof (bpow_le radix2 901 933 ltac:(lia)). assert (1 <= B 933) by (change 1 with (B 0); apply bpow_le; lia). unfold e. lra. }
    destruct (twiddle_near (d + 16 * u) (chirp64 n i) (chirp_r n i) _ cc e S eps_range (chirp_near i) fq' eq2 hc) as [ff ef].
    { pose proof (bpow_le radix2 901 933 ltac:(lia)). pose proof (big_room 933 934 ltac:(lia)). pose proof (big_room 934 935 ltac:(lia)). pose proof (bpow_le radix2 935 1016 ltac:(lia)). lra. }
    split; [exact ff|]. rewrite chirp_twiddle in ef by lia.
    assert (ecc : cc *c W (2 * n) (i * i) = DFT n X i).
    { unfold cc. rewrite (circular_ext m _ _ (chirp_a n X) (chirp_b m n n)); [apply chirp_circular; lia|lia|intros; apply first_chirp; lia|intros; apply second_chirp; lia]. }
    rewrite ecc in ef. eapply Rle_trans; [exact ef|].
    assert (he0 : 0 <= e) by (unfold e; assert (0 <= 2 * u * (S + eq')) by (apply Rmult_le_pos; lra); lra).
    assert ((6 * u + 2 * (d + 16 * u)) * (S + e) <= r2 * (S + e)) by (apply Rmult_le_compat_r; lra).
    pose proof (step_last th r2 eta N S hyp_t hyp_s (proj1 N_real) S_pos eta_pos (2 * u)) as hl. cbv zeta in hl. fold e in hl. specialize (hl ltac:(pose proof hyp_v; lra)). lra.
Qed.
End Bluestein.
