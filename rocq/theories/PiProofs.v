(** A bound for pi by the series of Machin in the standard library, and Lipschitz bounds *)
From Coq Require Import Reals Lra Lia ZArith QArith Qreals List.
From Coq Require Import Machin Ratan.
Open Scope R_scope.
Lemma Ratan_int b n : (0 < b)%Z -> Ratan_seq (/ IZR b) n = / IZR (b ^ Z.of_nat (2 * n + 1) * Z.of_nat (2 * n + 1)).
Proof.
  intros hb. unfold Ratan_seq. rewrite pow_inv. unfold Rdiv. rewrite <- Rinv_mult. f_equal. rewrite mult_IZR, <- pow_IZR, INR_IZR_INZ. reflexivity.
Qed.
(** sums of Machin's series *)
Definition machin_term (n : nat) : Q :=
  let k := Z.of_nat (2 * n + 1) in
  let a := Z.to_pos (3 ^ k * k) in let b := Z.to_pos (7 ^ k * k) in
  (if Nat.even n then 1 else (-1)) * ((2 # a) + (1 # b)).
Fixpoint machin_sum (n : nat) : Q := match n with O => machin_term 0 | S n => Qred (machin_sum n + machin_term (S n)) end.
Lemma machin_term_real n : Q2R (machin_term n) = tg_alt PI_2_3_7_tg n.
Proof.
  unfold machin_term, tg_alt, PI_2_3_7_tg. cbv zeta. set (k := Z.of_nat (2 * n + 1)). assert (hk : (0 < k)%Z) by (unfold k; lia).
  rewrite Q2R_mult, Q2R_plus. f_equal.
  - destruct (Nat.even n) eqn:e.
    + apply Nat.even_spec in e as [m ->]. rewrite pow_1_even. unfold Q2R; cbn; lra.
    + assert (o : Nat.odd n = true) by (unfold Nat.odd; rewrite e; reflexivity). apply Nat.odd_spec in o as [m ->]. replace (2 * m + 1)%nat with (S (2 * m)) by lia. rewrite pow_1_odd. unfold Q2R; cbn; lra.
  - rewrite !Ratan_int by lia. fold k. unfold Q2R. cbn [Qnum Qden]. rewrite !Z2Pos.id by (apply Z.mul_pos_pos; [apply Z.pow_pos_nonneg; lia|exact hk]). lra.
Qed.
Lemma machin_sum_real n : Q2R (machin_sum n) = sum_f_R0 (tg_alt PI_2_3_7_tg) n.
Proof.
  induction n as [|n IH]; cbn [machin_sum sum_f_R0]; [apply machin_term_real|]. rewrite <- IH, <- machin_term_real, <- Q2R_plus. apply Qeq_eqR, Qred_correct.
Qed.
Lemma pi_between : Q2R (4 * machin_sum 19) <= PI <= Q2R (4 * machin_sum 18).
Proof. rewrite !Q2R_mult, !machin_sum_real. pose proof (PI_2_3_7_ineq 9) as h. change (S (2 * 9)) with 19%nat in h. change (2 * 9)%nat with 18%nat in h. replace (Q2R 4) with 4 by (unfold Q2R; cbn; lra). lra. Qed.
Lemma pi_close : Rabs (PI - IZR 884279719003555 / IZR (2 ^ 48)) <= 5 / IZR (2 ^ 55).
Proof.
  assert (e : IZR 884279719003555 / IZR (2 ^ 48) = Q2R (884279719003555 # (2 ^ 48))) by reflexivity.
  assert (e2 : 5 / IZR (2 ^ 55) = Q2R (5 # (2 ^ 55))) by reflexivity.
  rewrite e, e2. pose proof pi_between as [h1 h2].
  assert (l : Q2R ((884279719003555 # (2 ^ 48)) - (5 # (2 ^ 55))) <= Q2R (4 * machin_sum 19)) by (apply Qle_Rle; vm_compute; discriminate).
  assert (g : Q2R (4 * machin_sum 18) <= Q2R ((884279719003555 # (2 ^ 48)) + (5 # (2 ^ 55)))) by (apply Qle_Rle; vm_compute; discriminate).
  rewrite Q2R_minus in l. rewrite Q2R_plus in g. apply Rabs_le. lra.
Qed.
Lemma cos_lipschitz a b : Rabs (cos a - cos b) <= Rabs (a - b).
Proof.
  destruct (MVT_abs cos (fun x => - sin x) b a) as (c & e & _); [intros; apply derivable_pt_lim_cos|]. rewrite e. rewrite <- (Rmult_1_l (Rabs (a - b))) at 2. apply Rmult_le_compat_r; [apply Rabs_pos|].
  rewrite Rabs_Ropp. apply Rabs_le. pose proof (SIN_bound c). lra.
Qed.
Lemma sin_lipschitz a b : Rabs (sin a - sin b) <= Rabs (a - b).
Proof.
  destruct (MVT_abs sin cos b a) as (c & e & _); [intros; apply derivable_pt_lim_sin|]. rewrite e. rewrite <- (Rmult_1_l (Rabs (a - b))) at 2. apply Rmult_le_compat_r; [apply Rabs_pos|].
  apply Rabs_le. pose proof (COS_bound c). lra.
Qed.
