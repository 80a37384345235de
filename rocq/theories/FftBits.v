(** Bit reversal and powers of two. *)
From Verif Require Import Base FftModel.

Fixpoint revb (n x : nat) : nat := match n with O => 0 | S n => (x mod 2) * 2 ^ n + revb n (x / 2) end.
Lemma pow2_pos n : 0 < 2 ^ n.
Proof. induction n; cbn [Nat.pow]; lia. Qed.
Lemma lor_double r b : b < 2 -> Nat.lor (2 * r) b = 2 * r + b.
Proof.
  intros h. destruct b as [|[|b]]; [rewrite Nat.lor_0_r; lia| |lia].
  rewrite <- Nat.lxor_lor, <- Nat.add_nocarry_lxor; auto; apply Nat.bits_inj; intros k; rewrite Nat.land_spec, Nat.bits_0; (destruct k as [|k]; [rewrite Nat.testbit_even_0; reflexivity|]);
    replace (Nat.testbit 1 (S k)) with false; [apply andb_false_r| |apply andb_false_r|]; symmetry; cbn; apply Nat.bits_0.
Qed.
Lemma reverse_loop n : forall x r, reverse_bits_loop n x r = r * 2 ^ n + revb n x.
Proof.
  induction n as [|n IH]; intros x r; cbn [reverse_bits_loop revb]; [cbn; lia|]. rewrite IH.
  change (Nat.shiftr x 1) with (Nat.div2 x). rewrite Nat.div2_div. change (Nat.shiftl r 1) with (Nat.double r). rewrite Nat.double_twice.
  replace (Nat.land x 1) with (x mod 2) by (symmetry; apply (Nat.land_ones x 1)).
  rewrite lor_double by (apply Nat.mod_upper_bound; lia). cbn [Nat.pow]. lia.
Qed.
Lemma reverse_eq x n : reverse_bits x n = revb n x.
Proof. unfold reverse_bits. rewrite reverse_loop. lia. Qed.
Lemma revb_lt n : forall x, revb n x < 2 ^ n.
Proof.
  induction n as [|n IH]; intros x; cbn [revb Nat.pow]; [lia|]. specialize (IH (x / 2)). pose proof (Nat.mod_upper_bound x 2 ltac:(lia)). nia.
Qed.
Lemma revb_step n b c : c < 2 -> revb (S n) (2 * b + c) = c * 2 ^ n + revb n b.
Proof.
  intros h. cbn [revb]. replace (2 * b + c) with (c + b * 2) by lia. rewrite Nat.mod_add, Nat.div_add by lia. rewrite (Nat.mod_small c), (Nat.div_small c) by lia. reflexivity.
Qed.
Lemma revb_top n : forall c z, c < 2 -> z < 2 ^ n -> revb (S n) (c * 2 ^ n + z) = 2 * revb n z + c.
Proof.
  induction n as [|n IH]; intros c z hc hz; [cbn in hz; replace z with 0 by lia; destruct c as [|[|c]]; [reflexivity|reflexivity|lia]|].
  remember (S n) as m eqn:em. cbn [revb]. subst m.
  assert (e1 : (c * 2 ^ S n + z) mod 2 = z mod 2). { cbn [Nat.pow]. replace (c * (2 * 2 ^ n) + z) with (z + (c * 2 ^ n) * 2) by lia. apply Nat.mod_add. lia. }
  assert (e2 : (c * 2 ^ S n + z) / 2 = c * 2 ^ n + z / 2). { cbn [Nat.pow]. replace (c * (2 * 2 ^ n) + z) with (z + (c * 2 ^ n) * 2) by lia. rewrite Nat.div_add by lia. lia. }
  rewrite e1, e2. rewrite IH; [cbn [revb Nat.pow]; lia|exact hc|]. cbn [Nat.pow] in hz. apply Nat.div_lt_upper_bound; lia.
Qed.
Lemma revb_revb n : forall x, x < 2 ^ n -> revb n (revb n x) = x.
Proof.
  induction n as [|n IH]; intros x hx; [cbn in *; lia|]. change (revb (S n) x) with ((x mod 2) * 2 ^ n + revb n (x / 2)).
  rewrite revb_top; [|apply Nat.mod_upper_bound; lia|apply revb_lt]. rewrite IH.
  - pose proof (Nat.div_mod x 2). lia.
  - cbn [Nat.pow] in hx. apply Nat.div_lt_upper_bound; lia.
Qed.
Lemma testbit_high c z n i : z < 2 ^ n -> Nat.testbit (c * 2 ^ n + z) i = if i <? n then Nat.testbit z i else Nat.testbit c (i - n).
Proof.
  intros hz. destruct (Nat.ltb_spec i n) as [h|h].
  - rewrite !Nat.testbit_eqb. f_equal. replace n with (i + S (n - i - 1)) at 1 by lia. rewrite Nat.pow_add_r. cbn [Nat.pow].
    replace (c * (2 ^ i * (2 * 2 ^ (n - i - 1))) + z) with (z + (2 * (c * 2 ^ (n - i - 1))) * 2 ^ i) by lia. pose proof (pow2_pos i).
    rewrite Nat.div_add by lia. rewrite (Nat.mul_comm 2), Nat.mod_add by lia. reflexivity.
  - rewrite !Nat.testbit_eqb. f_equal. replace i with (n + (i - n)) at 1 by lia. rewrite Nat.pow_add_r. pose proof (pow2_pos n). pose proof (pow2_pos (i - n)). rewrite <- Nat.div_div by lia.
    rewrite Nat.add_comm, Nat.div_add by lia. rewrite (Nat.div_small z) by exact hz. reflexivity.
Qed.
Lemma reverse_testbit n : forall x i, Nat.testbit (reverse_bits x n) i = if i <? n then Nat.testbit x (n - 1 - i) else false.
Proof.
  intros x i. rewrite reverse_eq. revert x i. induction n as [|n IH]; intros x i; [cbn [revb]; rewrite Nat.bits_0; destruct (Nat.ltb_spec i 0); [lia|reflexivity]|].
  cbn [revb]. rewrite testbit_high by apply revb_lt. rewrite IH. replace (x / 2) with (Nat.div2 x) by apply Nat.div2_div.
  destruct (Nat.ltb_spec i n), (Nat.ltb_spec i (S n)); try lia.
  - replace (S n - 1 - i) with (S (n - 1 - i)) by lia. reflexivity.
  - replace (i - n) with 0 by lia. replace (S n - 1 - i) with 0 by lia. rewrite !Nat.testbit_eqb. cbn [Nat.pow]. rewrite !Nat.div_1_r, Nat.mod_mod by lia. reflexivity.
  - pose proof (Nat.mod_upper_bound x 2 ltac:(lia)). destruct (i - n) as [|k] eqn:ek; [lia|]. destruct (x mod 2) as [|[|y]]; [apply Nat.bits_0| |lia]. cbn. apply Nat.bits_0.
Qed.

(** ** powers of two *)
Lemma land_even a b : Nat.land (2 * a) (2 * b + 1) = 2 * Nat.land a b.
Proof.
  apply Nat.bits_inj. intros [|k]; rewrite Nat.land_spec.
  - rewrite !Nat.testbit_even_0. reflexivity.
  - rewrite Nat.testbit_even_succ, Nat.testbit_odd_succ, Nat.testbit_even_succ, Nat.land_spec by lia. reflexivity.
Qed.
Lemma land_odd k : Nat.land (2 * k + 1) (2 * k) = 2 * k.
Proof.
  rewrite Nat.land_comm, land_even, Nat.land_diag. reflexivity.
Qed.
Lemma pow2_test n : 0 < n -> (Nat.land n (n - 1) = 0 <-> exists L, n = 2 ^ L).
Proof.
  induction n as [n IH] using lt_wf_ind. intros hn. destruct (Nat.Even_or_Odd n) as [[k ->]|[k ->]].
  - replace (2 * k - 1) with (2 * (k - 1) + 1) by lia. rewrite land_even. specialize (IH k ltac:(lia) ltac:(lia)). split.
    + intros h. destruct (proj1 IH ltac:(lia)) as [L e]. exists (S L). cbn [Nat.pow]. lia.
    + intros [[|L] e]; cbn [Nat.pow] in e; [lia|]. rewrite (proj2 IH); [lia|]. exists L. lia.
  - replace (2 * k + 1 - 1) with (2 * k) by lia. rewrite land_odd. split.
    + intros h. exists 0. cbn. lia.
    + intros [[|L] e]; cbn [Nat.pow] in e; lia.
Qed.
Lemma levels_pow2 L : forall fuel l, L <= fuel -> levels_loop fuel (2 ^ L) l = Some (l + L).
Proof.
  induction L as [|L IH]; intros fuel l h.
  - destruct fuel; cbn; f_equal; lia.
  - assert (h1 : 1 < 2 ^ S L) by (pose proof (pow2_pos L); cbn [Nat.pow]; lia). destruct fuel as [|fuel]; [lia|]. cbn [levels_loop]. rewrite (proj2 (Nat.ltb_lt _ _) h1).
    replace (Nat.shiftr (2 ^ S L) 1) with (2 ^ L). 2: { change (Nat.shiftr (2 ^ S L) 1) with (Nat.div2 (2 ^ S L)). rewrite Nat.div2_div. cbn [Nat.pow]. rewrite Nat.mul_comm, Nat.div_mul by lia. reflexivity. }
    rewrite IH by lia. f_equal. lia.
Qed.
Lemma pow2_gt L : L < 2 ^ L.
Proof. induction L; cbn [Nat.pow]; lia. Qed.
Lemma length_loop_spec n : 0 < n -> forall fuel p, n + 2 <= fuel + p -> 2 ^ p <= 4 * n -> exists L, length_loop fuel n (2 ^ p) = Some (2 ^ L) /\ 2 * n < 2 ^ L <= 4 * n.
Proof.
  intros hn. induction fuel as [|fuel IH]; intros p hp hle; cbn [length_loop].
  - assert (h : n < 2 ^ p / 2). { destruct p as [|p]; [lia|]. cbn [Nat.pow]. rewrite Nat.mul_comm, Nat.div_mul by lia. pose proof (pow2_gt p). lia. }
    rewrite (proj2 (Nat.leb_gt _ _) h). exists p. split; [reflexivity|]. pose proof (Nat.div_mod (2 ^ p) 2 ltac:(lia)). lia.
  - destruct (Nat.leb_spec (2 ^ p / 2) n) as [h|h].
    + destruct (IH (S p) ltac:(lia)) as (L & e & hL).
      { destruct p as [|p]; [cbn; lia|]. cbn [Nat.pow] in *. rewrite (Nat.mul_comm 2 (2 ^ p)), Nat.div_mul in h by lia. lia. }
      exists L. split; [|exact hL]. rewrite <- e. f_equal. cbn [Nat.pow]. lia.
    + exists p. split; [reflexivity|]. pose proof (Nat.div_mod (2 ^ p) 2 ltac:(lia)). lia.
Qed.
