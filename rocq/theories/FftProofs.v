(** The transform for powers of two. *)
From Coq Require Import Reals Lra.
From Verif Require Import Base KerSpec KerProofs FftModel FftSpec FftBits FftComplex FftRunProofs.
Open Scope R_scope.

Definition sig : arrays -> nat -> (nat -> C) -> Prop := sig_of R.
Lemma sig_ext s n z z' : sig s n z -> (forall i, (i < n)%nat -> z i = z' i) -> sig s n z'.
Proof. exact (sig_ext_of R s n z z'). Qed.
Lemma sig_lists s n : length (fst s) = n -> length (snd s) = n -> sig s n (fun i => (nth i (fst s) 0, nth i (snd s) 0)).
Proof. exact (sig_lists_of R 0 s n). Qed.
Lemma permute_ok L s z : sig s (2 ^ L) z -> exists s', permute (2 ^ L) L s = Some s' /\ sig s' (2 ^ L) (fun i => z (revb L i)).
Proof. exact (permute_of_ok R L s z). Qed.

Notation level_r := (level_run R Rplus Rminus Rmult Ropp (fun i n => cos (2 * PI * INR i / INR n)) (fun i n => sin (2 * PI * INR i / INR n))).
Notation twiddle_r := (ptwiddle R Rplus Rmult Ropp).
Lemma twiddle_exp t z : twiddle_r (cos t, sin t) z = cexp t *c z.
Proof. apply c_eq; unfold ptwiddle, cexp; cbn [cmul fst snd]; ring. Qed.
Definition stage_fn (half : nat) (z : nat -> C) (i : nat) : C :=
  let q := (i mod (2 * half))%nat in
  if (q <? half)%nat then z i +c W (2 * half) q *c z (i + half)%nat else z (i - half)%nat -c W (2 * half) (q - half) *c z i.
(** ** all stages *)
Definition level_fn (L p : nat) (x : nat -> C) (i : nat) : C := sub_dft (2 ^ p) (2 ^ (L - p)) x (revb (L - p) (i / 2 ^ p)) (i mod 2 ^ p).
Lemma level_step L p x i : (p < L)%nat -> (i < 2 ^ L)%nat -> stage_fn (2 ^ p) (level_fn L p x) i = level_fn L (S p) x i.
Proof.
  intros hp hi. pose proof (pow2_pos p) as hpp. set (N := (2 ^ p)%nat) in *. unfold stage_fn. cbv zeta. set (q := (i mod (2 * N))%nat). set (b := (i / (2 * N))%nat).
  assert (ei : i = (b * (2 * N) + q)%nat) by (unfold b, q; rewrite (Nat.div_mod i (2 * N)) at 1 by lia; lia). assert (hq : (q < 2 * N)%nat) by (apply Nat.mod_upper_bound; lia).
  replace (level_fn L (S p) x i) with (sub_dft (2 * N) (2 ^ (L - S p)) x (revb (L - S p) b) q) by reflexivity.
  assert (hs : (2 ^ (L - p) = 2 * 2 ^ (L - S p))%nat) by (replace (L - p)%nat with (S (L - S p)) by lia; reflexivity).
  assert (hl : forall c r, (c < 2)%nat -> (r < N)%nat -> level_fn L p x (b * (2 * N) + c * N + r)%nat = sub_dft N (2 * 2 ^ (L - S p)) x (revb (L - S p) b + c * 2 ^ (L - S p)) r).
  { intros c r hc hr. unfold level_fn. fold N. rewrite hs. replace (b * (2 * N) + c * N + r)%nat with (r + (2 * b + c) * N)%nat by lia. rewrite Nat.div_add, Nat.mod_add, Nat.div_small, Nat.mod_small by lia. cbn [Nat.add].
    replace (L - p)%nat with (S (L - S p)) by lia. change (0 + (2 * b + c))%nat with (2 * b + c)%nat. rewrite revb_step by exact hc. rewrite (Nat.add_comm (c * 2 ^ (L - S p))). reflexivity. }
  destruct (Nat.ltb_spec q N) as [h|h].
  - rewrite sub_dft_split by lia. pose proof (hl 0%nat q ltac:(lia) h) as e0. pose proof (hl 1%nat q ltac:(lia) h) as e1.
    replace (b * (2 * N) + 0 * N + q)%nat with i in e0 by lia. replace (b * (2 * N) + 1 * N + q)%nat with (i + N)%nat in e1 by lia. rewrite e0, e1. rewrite Nat.mul_0_l, Nat.add_0_r, Nat.mul_1_l. reflexivity.
  - replace (sub_dft (2 * N) (2 ^ (L - S p)) x (revb (L - S p) b) q) with (sub_dft (2 * N) (2 ^ (L - S p)) x (revb (L - S p) b) ((q - N) + N)) by (f_equal; lia). rewrite sub_dft_split_high by lia.
    pose proof (hl 0%nat (q - N)%nat ltac:(lia) ltac:(lia)) as e0. pose proof (hl 1%nat (q - N)%nat ltac:(lia) ltac:(lia)) as e1.
    replace (b * (2 * N) + 0 * N + (q - N))%nat with (i - N)%nat in e0 by lia. replace (b * (2 * N) + 1 * N + (q - N))%nat with i in e1 by lia. rewrite e0, e1. rewrite Nat.mul_0_l, Nat.add_0_r, Nat.mul_1_l. reflexivity.
Qed.
Lemma level_dft L x : forall p i, (p <= L)%nat -> (i < 2 ^ L)%nat -> level_r L p x i = level_fn L p x i.
Proof.
  induction p as [|p IH]; intros i hp hi.
  - cbn [level_run]. unfold level_fn. rewrite Nat.sub_0_r. change (2 ^ 0)%nat with 1%nat. rewrite Nat.div_1_r, Nat.mod_1_r. unfold sub_dft. cbn [csum]. rewrite Nat.mul_0_r, Nat.add_0_r, Nat.mul_0_l, W_0. csolve.
  - rewrite <- level_step by lia. cbn [level_run]. unfold stage_run, stage_fn. cbv zeta. pose proof (pow2_pos p) as hpp. pose proof (pow2_pos (L - S p)) as hpb.
    assert (en : (2 ^ L = 2 * 2 ^ p * 2 ^ (L - S p))%nat) by (change (2 * 2 ^ p)%nat with (2 ^ S p)%nat; rewrite <- Nat.pow_add_r; f_equal; lia).
    set (N := (2 ^ p)%nat) in *. set (q := (i mod (2 * N))%nat). assert (ei : i = (i / (2 * N) * (2 * N) + q)%nat) by (unfold q; rewrite (Nat.div_mod i (2 * N)) at 1 by lia; lia).
    assert (hq : (q < 2 * N)%nat) by (apply Nat.mod_upper_bound; lia).
    assert (hb : (i / (2 * N) < 2 ^ (L - S p))%nat) by (apply Nat.div_lt_upper_bound; lia).
    assert (ht : forall r z, twiddle_r (tw_run R (fun i n => cos (2 * PI * INR i / INR n)) (fun i n => sin (2 * PI * INR i / INR n)) L p r) z = W (2 * N) r *c z).
    { intros r z. unfold tw_run. rewrite twiddle_exp. unfold W. do 2 f_equal. rewrite en, !mult_INR. pose proof (INR_pos N hpp). pose proof (INR_pos _ hpb). field. cbn [INR]. splits; auto; lra. }
    destruct (Nat.ltb_spec q N); rewrite ht, !IH by (try lia; nia); apply c_eq; reflexivity.
Qed.
Lemma level_all L x i : (i < 2 ^ L)%nat -> level_r L L x i = DFT (2 ^ L) x i.
Proof.
  intros hi. rewrite level_dft by lia. unfold level_fn. rewrite Nat.sub_diag. rewrite Nat.mod_small by exact hi. unfold sub_dft, DFT. cbn [revb Nat.pow].
  apply csum_ext. intros j _. do 2 f_equal. lia.
Qed.
