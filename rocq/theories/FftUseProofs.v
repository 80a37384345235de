(** The transforms in terms of the specification. *)
From Coq Require Import Reals Lra.
From Verif Require Import Base KerSpec KerProofs FftModel FftSpec FftBits FftComplex FftProofs Fft2Proofs.
From Verif Require Import FftRunProofs.
Open Scope R_scope.

Definition zlist (re im : list R) (i : nat) : C := (nth i re 0, nth i im 0).
Lemma sig_zlist re im n : signal re im n -> sig (re, im) n (zlist re im).
Proof. intros [h1 h2]. apply (sig_lists (re, im) n); assumption. Qed.
Lemma sig_signal s n z : sig s n z -> signal (fst s) (snd s) n.
Proof. intros (h1 & h2 & _). split; assumption. Qed.
Lemma sig_nth s n z k : sig s n z -> (k < n)%nat -> nth k (fst s) 0 = fst (z k) /\ nth k (snd s) 0 = snd (z k).
Proof. intros (_ & _ & h) hk. destruct (h k hk) as [h1 h2]. split; apply nth_error_nth; assumption. Qed.

Lemma W_angle n j k : W n (j * k) = (cos (2 * PI * INR j * INR k / INR n), - sin (2 * PI * INR j * INR k / INR n)).
Proof. unfold W, cexp. rewrite mult_INR. replace (2 * PI * (INR j * INR k) / INR n) with (2 * PI * INR j * INR k / INR n) by (unfold Rdiv; ring). reflexivity. Qed.
Lemma DFT_parts n re im k : DFT n (zlist re im) k = (dft_re n re im k, dft_im n re im k).
Proof. unfold DFT. rewrite csum_parts. unfold dft_re, dft_im, zlist. f_equal; apply rsumf_ext; intros j _; rewrite W_angle; cbn [cmul fst snd]; ring. Qed.
Lemma IDFT_parts n re im k : IDFT n (zlist re im) k = (idft_re n re im k, idft_im n re im k).
Proof. unfold IDFT. rewrite csum_parts. unfold idft_re, idft_im, zlist, Wc. f_equal; apply rsumf_ext; intros j _; rewrite W_angle; cbn [cmul fst snd]; ring. Qed.
Lemma circular_parts n xr xi yr yi k : circular n (zlist xr xi) (zlist yr yi) k = (circular_re n xr xi yr yi k, circular_im n xr xi yr yi k).
Proof. unfold circular. rewrite csum_parts. unfold circular_re, circular_im, zlist. f_equal; apply rsumf_ext; intros j _; cbn [cmul fst snd]; ring. Qed.

Section Fft.
Variable junk : nat -> list R.
Hypothesis junk_length : forall n, length (junk n) = n.

Lemma fft_ok ok n re im : signal re im n ->
  exists st re' im', sp_fft junk ok n (re, im) = Some (st, (re', im')) /\
    (st = 0%Z /\ is_dft n re im re' im' \/ st = 1%Z /\ re' = re /\ im' = im) /\ ((forall p, ok p = true) -> st = 0%Z).
Proof.
  intros hs. destruct (transform_good junk junk_length 0 n ok (re, im) _ (sig_zlist _ _ _ hs)) as (st & [re' im'] & e & h & k). unfold sp_fft, fft_of. unfold transform in e. rewrite e. cbn [bind].
  exists (if st then 0%Z else 1%Z), re', im'. splits; [reflexivity| |intros hp; rewrite (k hp); reflexivity]. destruct st.
  - left. split; [reflexivity|]. split; [apply (sig_signal _ _ _ h)|]. intros j hj. destruct (sig_nth _ _ _ j h hj) as [h1 h2]. rewrite DFT_parts in h1, h2. split; assumption.
  - right. injection h as -> ->. auto.
Qed.
Lemma ffti_ok ok n re im : signal re im n ->
  exists st re' im', sp_ffti junk ok n (re, im) = Some (st, (re', im')) /\
    (st = 0%Z /\ is_idft n re im re' im' \/ st = 1%Z /\ re' = re /\ im' = im) /\ ((forall p, ok p = true) -> st = 0%Z).
Proof.
  intros hs. destruct (inverse_good _ n (transform_good junk junk_length 0 n) ok (re, im) _ (sig_zlist _ _ _ hs)) as (st & [re' im'] & e & h & k). unfold sp_ffti, ffti_of. unfold transform in e. rewrite e. cbn [bind].
  exists (if st then 0%Z else 1%Z), re', im'. splits; [reflexivity| |intros hp; rewrite (k hp); reflexivity]. destruct st.
  - left. split; [reflexivity|]. split; [apply (sig_signal _ _ _ h)|]. intros j hj. destruct (sig_nth _ _ _ j h hj) as [h1 h2]. rewrite IDFT_parts in h1, h2. split; assumption.
  - right. injection h as -> ->. auto.
Qed.
Lemma scaled_eq n (x x' : list R) : length x = n -> length x' = n -> (forall k, (k < n)%nat -> nth k x' 0 = INR n * nth k x 0) -> x' = map (fun v => INR n * v) x.
Proof.
  intros h1 h2 h. apply (nth_ext _ _ 0 (INR n * 0)); [rewrite map_length; lia|]. intros k hk. rewrite (map_nth (fun v => INR n * v)). apply h. lia.
Qed.
Lemma round_trip ok1 ok2 n re im : (forall p, ok1 p = true) -> (forall p, ok2 p = true) -> signal re im n ->
  exists s, sp_fft junk ok1 n (re, im) = Some (0%Z, s) /\ sp_ffti junk ok2 n s = Some (0%Z, (map (fun v => INR n * v) re, map (fun v => INR n * v) im)).
Proof.
  intros a1 a2 hs. destruct (transform_good junk junk_length 0 n ok1 (re, im) _ (sig_zlist _ _ _ hs)) as (st & s1 & e & h & k). rewrite (k a1) in *. exists s1. unfold sp_fft, fft_of. unfold transform in e. rewrite e. cbn [bind]. split; [reflexivity|].
  destruct (inverse_good _ n (transform_good junk junk_length 0 n) ok2 s1 _ h) as (st2 & [re' im'] & e2 & h2 & k2). rewrite (k2 a2) in *. unfold sp_ffti, ffti_of. unfold transform in e2. rewrite e2. cbn [bind]. destruct hs as [l1 l2]. destruct (sig_signal _ _ _ h2) as [m1 m2]. cbn [fst snd] in m1, m2.
  assert (hk : forall k, (k < n)%nat -> nth k re' 0 = INR n * nth k re 0 /\ nth k im' 0 = INR n * nth k im 0).
  { intros j hj. destruct (sig_nth _ _ _ j h2 hj) as [q1 q2]. rewrite IDFT_DFT in q1, q2 by exact hj. cbn [zlist cmul fst snd] in q1, q2. rewrite q1, q2. split; ring. }
  rewrite (scaled_eq n re re' l1 m1) by (intros; apply hk; assumption). rewrite (scaled_eq n im im' l2 m2) by (intros; apply hk; assumption). reflexivity.
Qed.
Lemma convolve_complex_ok ok n xr xi yr yi outr outi : signal xr xi n -> signal yr yi n -> signal outr outi n ->
  exists st outr' outi', convolve_complex (transform junk 1) ok (xr, xi) (yr, yi) (outr, outi) n = Some (st, (outr', outi')) /\
    (st = true /\ signal outr' outi' n /\ (forall k, (k < n)%nat -> nth k outr' 0 = circular_re n xr xi yr yi k /\ nth k outi' 0 = circular_im n xr xi yr yi k) \/
     st = false /\ outr' = outr /\ outi' = outi) /\ ((forall p, ok p = true) -> st = true).
Proof.
  intros hx hy [ho1 ho2]. destruct (convolve_good _ ok n (xr, xi) (yr, yi) (outr, outi) _ _ (transform_good junk junk_length 0 n) (sig_zlist _ _ _ hx) (sig_zlist _ _ _ hy) ho1 ho2) as (st & [a b] & e & h & k).
  exists st, a, b. splits; auto. destruct st.
  - left. splits; auto; [apply (sig_signal _ _ _ h)|]. intros j hj. destruct (sig_nth _ _ _ j h hj) as [h1 h2]. rewrite circular_parts in h1, h2. split; assumption.
  - right. injection h as -> ->. auto.
Qed.
Lemma nth_zeros n k : nth k (repeat 0 n) 0 = 0.
Proof. apply nth_repeat. Qed.
Lemma convolve_real_ok ok n x y out : length x = n -> length y = n -> length out = n ->
  exists st out', convolve_real junk 1 ok x y out n = Some (st, out') /\
    (st = true /\ length out' = n /\ (forall k, (k < n)%nat -> nth k out' 0 = rsumf n (fun j => nth j x 0 * nth ((k + n - j) mod n) y 0)) \/ st = false /\ out' = out) /\
    ((forall p, ok p = true) -> st = true).
Proof.
  intros hx hy ho. unfold convolve_real, convolve_real_of. destruct (ok []) eqn:e0; cbn [negb]; [|exists false, out; splits; auto; intros h; rewrite h in e0; discriminate].
  destruct (convolve_complex_ok (fun p => ok (0%nat :: p)) n x (repeat 0 n) y (repeat 0 n) out (repeat 0 n)) as (st & a & b & e & h & k); try (split; [assumption|apply repeat_length]).
  unfold convolve_complex, transform in e. rewrite e. cbn [bind]. exists st, a. splits; auto. destruct h as [(-> & [l1 _] & h)|(-> & -> & _)]; [|auto]. left. splits; auto.
  intros j hj. destruct (h j hj) as [-> _]. unfold circular_re. apply rsumf_ext. intros i _. rewrite !nth_zeros. ring.
Qed.
Lemma permute_bits L re im : signal re im (2 ^ L) ->
  exists re' im', permute (2 ^ L) L (re, im) = Some (re', im') /\ signal re' im' (2 ^ L) /\
    forall i, (i < 2 ^ L)%nat -> nth i re' 0 = nth (reverse_bits i L) re 0 /\ nth i im' 0 = nth (reverse_bits i L) im 0.
Proof.
  intros hs. destruct (permute_ok L (re, im) _ (sig_zlist _ _ _ hs)) as ([re' im'] & e & h). exists re', im'. splits; [exact e|apply (sig_signal _ _ _ h)|].
  intros i hi. destruct (sig_nth _ _ _ i h hi) as [h1 h2]. rewrite reverse_eq. split; assumption.
Qed.
End Fft.
Lemma reverse_involution x n : (x < 2 ^ n)%nat -> (reverse_bits x n < 2 ^ n)%nat /\ reverse_bits (reverse_bits x n) n = x.
Proof. intros h. rewrite !reverse_eq. split; [apply revb_lt|apply revb_revb; exact h]. Qed.
