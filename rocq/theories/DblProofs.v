(** Proofs about double precision arithmetic *)
From Coq Require Import ZArith Reals List Lia Lra.
From Flocq Require Import Core BinarySingleNaN Pff2Flocq Plus_error Relative.
From Verif Require Import Base DblModel DblSpec.
Import ListNotations.
Open Scope R_scope.

Notation u := unit_roundoff.
Notation fexp64 := (FLT_exp (-1074) 53).
Notation rnd := (round radix2 fexp64 ZnearestE).
Notation B := (bpow radix2).

Lemma fexp64_eq : SpecFloat.fexp 53 1024 = fexp64. Proof. reflexivity. Qed.
Lemma u_pos : 0 < u. Proof. unfold u. apply Rinv_0_lt_compat, IZR_lt. reflexivity. Qed.
Lemma u_val : u = B (-53). Proof. reflexivity. Qed.
Lemma u_small : u <= / IZR (2 ^ 53). Proof. unfold u. lra. Qed.
Lemma u_num : u * IZR (2 ^ 53) = 1. Proof. unfold u. rewrite Rinv_l; [reflexivity|]. apply Rgt_not_eq, IZR_lt. reflexivity. Qed.
Lemma u_bound k : (0 < k)%Z -> (k <= 2 ^ 53)%Z -> u * IZR k <= 1.
Proof. intros h0 h. rewrite <- u_num. apply Rmult_le_compat_l; [apply Rlt_le, u_pos|]. apply IZR_le. exact h. Qed.
Lemma u_ro_le : u_ro radix2 53 / (1 + u_ro radix2 53) <= u.
Proof.
  assert (e : u_ro radix2 53 = u). { unfold u_ro. rewrite u_val. change (/ 2) with (/ IZR 2). change (/ IZR 2) with (B (-1)). rewrite <- bpow_plus. reflexivity. }
  rewrite e. pose proof u_pos. apply (Rmult_le_reg_r (1 + u)); [lra|]. unfold Rdiv. rewrite Rmult_assoc, Rinv_l by lra. nra.
Qed.
Lemma format_real (a : f64) : generic_format radix2 fexp64 (real a).
Proof. apply (generic_format_B2R 53 1024). Qed.

(** an addition has a small relative error, if it cannot overflow *)
Lemma rnd_add x y : generic_format radix2 fexp64 x -> generic_format radix2 fexp64 y -> exists e, Rabs e <= u /\ rnd (x + y) = (x + y) * (1 + e).
Proof.
  intros hx hy. destruct (FLT_plus_error_N_ex radix2 (-1074) 53 (fun z => negb (Z.even z)) x y hx hy) as (e & h1 & h2).
  exists e. split; [|exact h2]. eapply Rle_trans; [exact h1|apply u_ro_le].
Qed.
Lemma u_half : u <= / 2.
Proof. pose proof (u_bound 2 ltac:(lia) ltac:(reflexivity || (intro; discriminate))). lra. Qed.
Lemma big_double : B 1022 + B 1022 < B 1024.
Proof. change 1024%Z with (2 + 1022)%Z. rewrite bpow_plus. change (B 2) with 4. pose proof (bpow_gt_0 radix2 1022). lra. Qed.
Lemma fadd_ok a b : finite a -> finite b -> Rabs (real a + real b) <= B 1022 ->
  finite (fadd a b) /\ real (fadd a b) = rnd (real a + real b) /\ exists e, Rabs e <= u /\ real (fadd a b) = (real a + real b) * (1 + e).
Proof.
  intros ha hb h. pose proof (Bplus_correct 53 1024 _ _ mode_NE a b ha hb) as p. destruct (rnd_add _ _ (format_real a) (format_real b)) as (e & he & hr).
  change (round_mode mode_NE) with ZnearestE in p. rewrite fexp64_eq in p. fold (real a) (real b) in p.
  rewrite Rlt_bool_true in p.
  - destruct p as (p1 & p2 & _). split; [exact p2|]. split; [exact p1|]. exists e. split; [exact he|]. unfold real at 1. unfold fadd. rewrite p1. exact hr.
  - rewrite hr, Rabs_mult. pose proof big_double. pose proof (bpow_gt_0 radix2 1022). pose proof u_half.
    assert (Rabs (1 + e) <= 2) by (apply Rabs_le; apply Rabs_le_inv in he; lra).
    pose proof (Rabs_pos (real a + real b)). pose proof (Rabs_pos (1 + e)). nra.
Qed.
Lemma fsub_ok a b : finite a -> finite b -> Rabs (real a - real b) <= B 1022 ->
  finite (fsub a b) /\ real (fsub a b) = rnd (real a - real b) /\ exists e, Rabs e <= u /\ real (fsub a b) = (real a - real b) * (1 + e).
Proof.
  intros ha hb h. pose proof (Bminus_correct 53 1024 _ _ mode_NE a b ha hb) as p.
  destruct (rnd_add (real a) (- real b) (format_real a) (generic_format_opp _ _ _ (format_real b))) as (e & he & hr).
  fold (Rminus (real a) (real b)) in hr. change (round_mode mode_NE) with ZnearestE in p. rewrite fexp64_eq in p. fold (real a) (real b) in p.
  rewrite Rlt_bool_true in p.
  - destruct p as (p1 & p2 & _). split; [exact p2|]. split; [exact p1|]. exists e. split; [exact he|]. unfold real at 1. unfold fsub. rewrite p1. exact hr.
  - rewrite hr, Rabs_mult. pose proof big_double. pose proof (bpow_gt_0 radix2 1022). pose proof u_half.
    assert (Rabs (1 + e) <= 2) by (apply Rabs_le; apply Rabs_le_inv in he; lra).
    pose proof (Rabs_pos (real a - real b)). pose proof (Rabs_pos (1 + e)). nra.
Qed.
Lemma fle_ok a b : finite a -> finite b -> fle a b = Rle_bool (real a) (real b).
Proof. intros. now apply Bleb_correct. Qed.

(** ** The compensated sum *)
Definition few (n : nat) : Prop := INR n <= IZR (2 ^ 50).
Lemma few_u n : few n -> INR n * u <= / 8.
Proof.
  intros h. assert (IZR (2 ^ 50) * 8 = IZR (2 ^ 53)) by (rewrite <- mult_IZR; reflexivity).
  pose proof u_num. pose proof u_pos. unfold few in h. assert (INR n * u <= IZR (2 ^ 50) * u) by (apply Rmult_le_compat_r; lra). nra.
Qed.
Lemma few_S n : few (S n) -> few n.
Proof. unfold few. rewrite S_INR. lra. Qed.
Lemma growth n : few n -> 1 <= (1 + u) ^ n <= 1 + 2 * (INR n * u).
Proof.
  pose proof u_pos. induction n as [|n IH]; intros h; [cbn; lra|]. pose proof (few_u n (few_S n h)). specialize (IH (few_S n h)). rewrite S_INR.
  change ((1 + u) ^ S n) with ((1 + u) * (1 + u) ^ n). pose proof (pos_INR n). assert (0 <= INR n * u) by nra. split; nra.
Qed.
Lemma growth_2 n : few n -> 1 <= (1 + u) ^ n <= 2.
Proof. intros h. pose proof (growth n h). pose proof (few_u n h). lra. Qed.
Lemma u_16 : u <= / 16. Proof. pose proof (u_bound 16 ltac:(lia) ltac:(intro; discriminate)). lra. Qed.
Lemma big_1000 : 16 * B 1000 <= B 1022.
Proof. change 1022%Z with (22 + 1000)%Z. rewrite bpow_plus. change (B 22) with 4194304. pose proof (bpow_gt_0 radix2 1000). lra. Qed.
Lemma Rabs_prod_le a b c d : Rabs a <= c -> Rabs b <= d -> Rabs (a * b) <= c * d.
Proof. intros. rewrite Rabs_mult. apply Rmult_le_compat; auto using Rabs_pos. Qed.

(** the correction term is small, even if the wrong operand is subtracted *)
Lemma correction_small a x y T : finite a -> finite x -> finite y -> 0 <= T <= B 1000 -> Rabs (real x) <= 2 * T -> Rabs (real y) <= 2 * T -> Rabs (real x + real y) <= 2 * T ->
  (exists e, Rabs e <= u /\ real a = (real x + real y) * (1 + e)) ->
  finite (fadd (fsub x a) y) /\ Rabs (real (fadd (fsub x a) y)) <= 5 * u * T.
Proof.
  intros ha hx hy hT bx by_ bxy (e & he & hr). pose proof u_pos. pose proof u_16. pose proof big_1000.
  assert (q1 : Rabs ((real x + real y) * e) <= 2 * T * u) by (apply Rabs_prod_le; auto).
  assert (d1 : real x - real a = - real y - (real x + real y) * e) by (rewrite hr; ring).
  assert (b1 : Rabs (real x - real a) <= 2 * T + 2 * T * u).
  { rewrite d1. unfold Rminus. eapply Rle_trans; [apply Rabs_triang|]. rewrite !Rabs_Ropp. lra. }
  destruct (fsub_ok x a hx ha) as (f1 & _ & e1 & he1 & r1); [nra|].
  assert (q2 : Rabs ((real x - real a) * e1) <= (2 * T + 2 * T * u) * u) by (apply Rabs_prod_le; auto).
  assert (d2 : real (fsub x a) + real y = - ((real x + real y) * e) + (real x - real a) * e1) by (rewrite r1; rewrite d1; ring).
  assert (b2 : Rabs (real (fsub x a) + real y) <= 4 * T * u + 2 * T * u * u).
  { rewrite d2. eapply Rle_trans; [apply Rabs_triang|]. rewrite Rabs_Ropp. nra. }
  assert (0 <= T * u) by nra. assert (0 <= T * u * u) by nra.
  assert (T * u <= T) by nra. assert (T * u * u <= T * u * / 16) by nra.
  destruct (fadd_ok (fsub x a) y f1 hy) as (f2 & _ & e2 & he2 & r2); [lra|]. split; [exact f2|]. rewrite r2.
  eapply Rle_trans; [apply (Rabs_prod_le _ _ (4 * T * u + 2 * T * u * u) (1 + u)); [exact b2|]|].
  - eapply Rle_trans; [apply Rabs_triang|]. rewrite Rabs_R1. lra.
  - assert (T * u * u * u <= T * u * u) by nra. nra.
Qed.
Lemma step_general c s x T : finite c -> finite s -> finite x -> 0 <= T <= B 1000 -> Rabs (real s) <= 2 * T -> Rabs (real x) <= 2 * T -> Rabs (real s + real x) <= 2 * T -> Rabs (real c) <= 2 * T ->
  finite (fst (sum_step x (c, s))) /\ finite (snd (sum_step x (c, s))) /\
  (exists e, Rabs e <= u /\ real (snd (sum_step x (c, s))) = (real s + real x) * (1 + e)) /\
  Rabs (real (fst (sum_step x (c, s)))) <= (1 + u) * (Rabs (real c) + 5 * u * T).
Proof.
  intros hc hs hx hT bs bx bsx bc. pose proof u_pos. pose proof u_16. pose proof big_1000. cbn [sum_step fst snd].
  destruct (fadd_ok s x hs hx) as (f1 & _ & e & he & r1); [lra|].
  set (b := if fle x s then fadd (fsub s (fadd s x)) x else fadd (fsub x (fadd s x)) s).
  assert (hb : finite b /\ Rabs (real b) <= 5 * u * T).
  { unfold b. destruct (fle x s); apply correction_small; auto.
    - exists e. auto.
    - rewrite Rplus_comm. exact bsx.
    - exists e. rewrite (Rplus_comm (real x)). auto. }
  destruct hb as [fb bb]. assert (T * u <= T * / 16) by nra.
  assert (bt : Rabs (real c + real b) <= Rabs (real c) + 5 * u * T). { eapply Rle_trans; [apply Rabs_triang|]. lra. }
  destruct (fadd_ok c b hc fb) as (f2 & _ & e2 & he2 & r2); [lra|]. split; [exact f2|]. split; [exact f1|]. split; [exists e; auto|].
  rewrite r2, (Rmult_comm (1 + u)). apply Rabs_prod_le; [exact bt|]. eapply Rle_trans; [apply Rabs_triang|]. rewrite Rabs_R1. lra.
Qed.

Definition run (r : f64) (es : list f64) : f64 * f64 := fold_left (fun s x => sum_step x s) es (fzero, r).
Lemma run_app r es x : run r (es ++ [x]) = sum_step x (run r es).
Proof. unfold run. rewrite fold_left_app. reflexivity. Qed.
Lemma real_sum_app a b : real_sum (a ++ b) = real_sum a + real_sum b.
Proof. induction a as [|x a IH]; cbn [app real_sum]; [lra|]. rewrite IH. lra. Qed.
Lemma real_abs_sum_app a b : real_abs_sum (a ++ b) = real_abs_sum a + real_abs_sum b.
Proof. induction a as [|x a IH]; cbn [app real_abs_sum]; [lra|]. rewrite IH. lra. Qed.
Lemma real_abs_sum_pos a : 0 <= real_abs_sum a.
Proof. induction a as [|x a IH]; cbn [real_abs_sum]; [lra|]. pose proof (Rabs_pos (real x)). lra. Qed.

Lemma run_general T r : 0 <= T <= B 1000 -> finite r -> forall es, Forall finite es -> few (length es) -> Rabs (real r) + real_abs_sum es <= T ->
  finite (fst (run r es)) /\ finite (snd (run r es)) /\
  Rabs (real (snd (run r es))) <= (1 + u) ^ length es * (Rabs (real r) + real_abs_sum es) /\
  Rabs (real (snd (run r es)) - (real r + real_sum es)) <= 2 * INR (length es) * u * T /\
  Rabs (real (fst (run r es))) <= 5 * u * T * INR (length es) * (1 + u) ^ length es.
Proof.
  intros hT hr. pose proof u_pos. pose proof u_16. induction es as [|x es IH] using rev_ind; intros hf hn hb.
  - cbn [run fold_left fst snd length real_sum real_abs_sum pow INR]. change (real fzero) with 0. rewrite Rabs_R0, Rplus_0_r, Rminus_diag_eq, Rabs_R0 by ring.
    splits; [reflexivity|exact hr|lra|lra|lra].
  - rewrite run_app. apply Forall_app in hf. destruct hf as [hf hx]. inversion hx as [|? ? fx _]; subst. rewrite app_length in hn |- *. cbn [length] in hn |- *.
    rewrite Nat.add_1_r in hn |- *. rewrite real_abs_sum_app in hb |- *. rewrite real_sum_app. cbn [real_abs_sum real_sum] in hb |- *. rewrite !Rplus_0_r in hb. rewrite ?Rplus_0_r.
    pose proof (real_abs_sum_pos es). pose proof (Rabs_pos (real x)). pose proof (Rabs_pos (real r)).
    destruct (IH hf (few_S _ hn) ltac:(lra)) as (f1 & f2 & b1 & b2 & b3). clear IH. pose proof (few_u _ (few_S _ hn)) as fu. pose proof (growth_2 _ (few_S _ hn)) as g.
    destruct (run r es) as [c s]. cbn [fst snd] in *. set (n := length es) in *. set (A := Rabs (real r) + real_abs_sum es) in *. set (G := (1 + u) ^ n) in *.
    change ((1 + u) ^ S n) with ((1 + u) * G). rewrite S_INR. pose proof (pos_INR n).
    assert (bsx : Rabs (real s + real x) <= G * (A + Rabs (real x))). { eapply Rle_trans; [apply Rabs_triang|]. nra. }
    assert (G * (A + Rabs (real x)) <= 2 * T). { assert (0 <= A) by (unfold A; lra). assert (A + Rabs (real x) <= T) by (unfold A; lra). nra. }
    assert (Rabs (real s) <= 2 * T). { assert (0 <= A) by (unfold A; lra). assert (A <= T) by (unfold A; lra). nra. }
    assert (Rabs (real x) <= 2 * T) by lra.
    assert (0 <= INR n * u) by nra. assert (0 <= u * T) by nra.
    assert (bc : Rabs (real c) <= 2 * T). { eapply Rle_trans; [exact b3|]. replace (5 * u * T * INR n * G) with (5 * T * (INR n * u) * G) by ring. assert (0 <= T * (INR n * u)) by nra. assert (T * (INR n * u) <= T * / 8) by nra. nra. }
    destruct (step_general c s x T) as (g1 & g2 & (e & he & r1) & g3); auto; [lra|]. splits; auto.
    + rewrite r1. replace ((1 + u) * G * (Rabs (real r) + (real_abs_sum es + Rabs (real x)))) with (G * (A + Rabs (real x)) * (1 + u)) by (unfold A; ring).
      apply Rabs_prod_le; [exact bsx|]. eapply Rle_trans; [apply Rabs_triang|]. rewrite Rabs_R1. lra.
    + rewrite r1. replace ((real s + real x) * (1 + e) - (real r + (real_sum es + real x))) with ((real s - (real r + real_sum es)) + (real s + real x) * e) by ring.
      eapply Rle_trans; [apply Rabs_triang|]. assert (Rabs ((real s + real x) * e) <= 2 * T * u) by (apply Rabs_prod_le; [eapply Rle_trans; eassumption|exact he]). nra.
    + eapply Rle_trans; [exact g3|]. replace (5 * u * T * (INR n + 1) * ((1 + u) * G)) with ((1 + u) * (5 * u * T * INR n * G + 5 * u * T * G)) by ring.
      apply Rmult_le_compat_l; [lra|]. assert (5 * u * T <= 5 * u * T * G) by nra. lra.
Qed.
Lemma run_general_result T r es : 0 <= T <= B 1000 -> finite r -> Forall finite es -> few (length es) -> Rabs (real r) + real_abs_sum es <= T ->
  finite (fadd (fst (run r es)) (snd (run r es))) /\
  Rabs (real (fadd (fst (run r es)) (snd (run r es))) - (real r + real_sum es)) <= 12 * INR (S (length es)) * u * T.
Proof.
  intros hT hr hf hn hb. destruct (run_general T r hT hr es hf hn hb) as (f1 & f2 & b1 & b2 & b3). pose proof (few_u _ hn). pose proof (growth_2 _ hn) as g.
  destruct (run r es) as [c s]. cbn [fst snd] in *. set (n := length es) in *. rewrite S_INR. pose proof (pos_INR n). pose proof u_pos. pose proof u_16. pose proof big_1000.
  pose proof (real_abs_sum_pos es). pose proof (Rabs_pos (real r)). set (A := Rabs (real r) + real_abs_sum es) in *. set (G := (1 + u) ^ n) in *.
  assert (0 <= INR n * u) by nra. assert (0 <= u * T) by nra.
  assert (Rabs (real s) <= 2 * T) by (assert (0 <= A) by (unfold A; lra); nra).
  assert (b4 : Rabs (real c) <= 10 * (INR n * u * T)). { eapply Rle_trans; [exact b3|]. replace (5 * u * T * INR n * G) with (5 * (INR n * u * T) * G) by ring. assert (0 <= INR n * u * T) by nra. nra. }
  assert (INR n * u * T <= / 8 * T) by nra.
  assert (b5 : Rabs (real c + real s) <= 4 * T). { eapply Rle_trans; [apply Rabs_triang|]. lra. }
  destruct (fadd_ok c s f1 f2) as (f3 & _ & e & he & r1); [lra|]. split; [exact f3|]. rewrite r1.
  replace ((real c + real s) * (1 + e) - (real r + real_sum es)) with (real c + (real s - (real r + real_sum es)) + (real c + real s) * e) by ring.
  eapply Rle_trans; [apply Rabs_triang|]. assert (Rabs ((real c + real s) * e) <= 4 * T * u) by (apply Rabs_prod_le; auto).
  pose proof (Rabs_triang (real c) (real s - (real r + real_sum es))). nra.
Qed.

Lemma choice_sym : forall z, negb (Z.even z) = negb (negb (Z.even (- (z + 1)))).
Proof. intros z. rewrite Z.even_opp, Z.even_add. destruct (Z.even z); reflexivity. Qed.
(** the correction term is exact if the greater operand is chosen *)
Lemma correction_exact a x y : finite a -> finite x -> finite y -> Rabs (real x) <= B 1000 -> Rabs (real y) <= Rabs (real x) -> real a = rnd (real x + real y) ->
  Rabs (real x - real a) <= B 1022 -> Rabs (real (fsub x a) + real y) <= B 1022 ->
  finite (fadd (fsub x a) y) /\ real a + real (fadd (fsub x a) y) = real x + real y.
Proof.
  intros ha hx hy b h r b1 b2. destruct (fsub_ok x a hx ha b1) as (f1 & r1 & _). destruct (fadd_ok (fsub x a) y f1 hy b2) as (f2 & r2 & _). split; [exact f2|].
  rewrite r2, r1, r, (Rplus_comm (rnd (real x - _)) (real y)).
  apply (Fast2Sum_correct (-1074) 53 (fun z => negb (Z.even z))); try lia; [exact choice_sym|apply format_real|apply format_real|exact h].
Qed.
Lemma step_nonneg c s x T : finite c -> finite s -> finite x -> 0 <= T <= B 999 -> 0 <= real s -> 0 <= real x -> real s + real x <= 2 * T -> Rabs (real c) <= 2 * T ->
  finite (fst (sum_step x (c, s))) /\ finite (snd (sum_step x (c, s))) /\ 0 <= real (snd (sum_step x (c, s))) <= (real s + real x) * (1 + u) /\
  exists b, real (snd (sum_step x (c, s))) + b = real s + real x /\ Rabs b <= u * (2 * T) /\
    exists e, Rabs e <= u /\ real (fst (sum_step x (c, s))) = (real c + b) * (1 + e).
Proof.
  intros hc hs hx hT bs bx bsx bc. pose proof u_pos. pose proof u_16. pose proof big_1000.
  assert (b999 : 2 * B 999 = B 1000) by (change 1000%Z with (1 + 999)%Z; rewrite bpow_plus; reflexivity).
  assert (hT' : 0 <= T <= B 1000) by (pose proof (bpow_gt_0 radix2 999); lra).
  cbn [sum_step fst snd].
  assert (asx : Rabs (real s + real x) = real s + real x) by (apply Rabs_pos_eq; lra).
  destruct (fadd_ok s x hs hx) as (f1 & r0 & e & he & r1); [rewrite asx; lra|].
  set (b := if fle x s then fadd (fsub s (fadd s x)) x else fadd (fsub x (fadd s x)) s).
  assert (small : finite b /\ Rabs (real b) <= 5 * u * T).
  { unfold b. destruct (fle x s); apply correction_small; auto; rewrite ?(Rabs_pos_eq (real s)), ?(Rabs_pos_eq (real x)) by lra; try lra.
    - exists e. auto.
    - rewrite Rplus_comm. lra.
    - exists e. rewrite (Rplus_comm (real x)). auto. }
  assert (he' := Rabs_le_inv _ _ he).
  assert (ba : 0 <= real (fadd s x) <= (real s + real x) * (1 + u)). { rewrite r1. split; nra. }
  assert (exact : real (fadd s x) + real b = real s + real x).
  { unfold b. rewrite fle_ok by auto. destruct (Rle_bool_spec (real x) (real s)) as [h|h].
    - assert (b1 : Rabs (real s - real (fadd s x)) <= B 1022) by (apply Rabs_le; nra).
      apply correction_exact; auto; rewrite ?(Rabs_pos_eq (real s)), ?(Rabs_pos_eq (real x)) by lra; try lra.
      destruct (fsub_ok s (fadd s x) hs f1 b1) as (_ & _ & e1 & he1 & r2). apply Rabs_le_inv in he1. rewrite r2. apply Rabs_le. apply Rabs_le_inv in b1. nra.
    - assert (b1 : Rabs (real x - real (fadd s x)) <= B 1022) by (apply Rabs_le; nra).
      rewrite (Rplus_comm (real s) (real x)). apply correction_exact; auto; rewrite ?(Rabs_pos_eq (real s)), ?(Rabs_pos_eq (real x)) by lra; try lra.
      + rewrite Rplus_comm. exact r0.
      + destruct (fsub_ok x (fadd s x) hx f1 b1) as (_ & _ & e1 & he1 & r2). apply Rabs_le_inv in he1. rewrite r2. apply Rabs_le. apply Rabs_le_inv in b1. nra. }
  destruct small as [fb bb].
  assert (T * u <= T * / 16) by nra.
  assert (bt : Rabs (real c + real b) <= 3 * T). { eapply Rle_trans; [apply Rabs_triang|]. lra. }
  destruct (fadd_ok c b hc fb) as (f2 & _ & e2 & he2 & r2); [lra|]. split; [exact f2|]. split; [exact f1|]. split; [exact ba|].
  exists (real b). split; [exact exact|]. split; [|exists e2; split; [exact he2|exact r2]].
  replace (real b) with (- ((real s + real x) * e)) by (rewrite r1 in exact; lra). rewrite Rabs_Ropp, (Rmult_comm u). apply Rabs_prod_le; [rewrite asx; lra|exact he].
Qed.
Lemma run_nonneg T r : 0 <= T <= B 999 -> finite r -> 0 <= real r -> forall es, Forall finite es -> Forall (fun x => 0 <= real x) es -> few (length es) -> real r + real_sum es <= T ->
  finite (fst (run r es)) /\ finite (snd (run r es)) /\ 0 <= real (snd (run r es)) <= (1 + u) ^ length es * (real r + real_sum es) /\
  exists E, real (snd (run r es)) + E = real r + real_sum es /\ Rabs E <= 2 * INR (length es) * u * T /\
    Rabs (real (fst (run r es)) - E) <= 2 * (u * u * T) * (INR (length es) * INR (length es)) * (1 + u) ^ length es.
Proof.
  intros hT hr pr. pose proof u_pos. pose proof u_16. induction es as [|x es IH] using rev_ind; intros hf hp hn hb.
  - cbn [run fold_left fst snd length real_sum pow INR]. change (real fzero) with 0. splits; [reflexivity|exact hr|lra|lra|]. exists 0. rewrite Rminus_0_r, Rabs_R0. splits; lra.
  - rewrite run_app. apply Forall_app in hf, hp. destruct hf as [hf hx]. destruct hp as [hp px]. inversion hx as [|? ? fx _]; subst. inversion px as [|? ? qx _]; subst. clear hx px.
    rewrite app_length in hn |- *. cbn [length] in hn |- *. rewrite Nat.add_1_r in hn |- *. rewrite real_sum_app in hb |- *. cbn [real_sum] in hb |- *. rewrite Rplus_0_r in hb. rewrite Rplus_0_r.
    assert (0 <= real_sum es). { clear - hp. induction hp; cbn [real_sum]; lra. }
    destruct (IH hf hp (few_S _ hn) ltac:(lra)) as (f1 & f2 & b1 & E & e1 & b2 & b3). clear IH. pose proof (few_u _ (few_S _ hn)) as fu. pose proof (growth_2 _ (few_S _ hn)) as g.
    destruct (run r es) as [c s]. cbn [fst snd] in *. set (n := length es) in *. set (A := real r + real_sum es) in *. set (G := (1 + u) ^ n) in *.
    change ((1 + u) ^ S n) with ((1 + u) * G). rewrite S_INR. pose proof (pos_INR n). set (N := INR n) in *. assert (hA : 0 <= A <= T) by (unfold A; lra).
    assert (bsx : real s + real x <= G * (A + real x)) by nra.
    assert (bA : A + real x <= T) by (unfold A; lra).
    assert (bsx' : real s + real x <= 2 * T) by nra.
    assert (uT : 0 <= u * T) by nra. assert (uT' : u * T <= T * / 16) by nra. assert (0 <= N * u) by nra.
    assert (bE : Rabs E <= / 4 * T) by nra.
    set (D := 2 * (u * u * T) * (N * N) * G) in *.
    assert (hD : 0 <= D <= T). { unfold D. replace (2 * (u * u * T) * (N * N) * G) with (2 * ((N * u) * (N * u)) * (T * G)) by ring. assert (0 <= (N * u) * (N * u) <= / 64) by nra. assert (0 <= T * G <= 2 * T) by nra. nra. }
    assert (bc : Rabs (real c) <= 2 * T). { replace (real c) with ((real c - E) + E) by ring. eapply Rle_trans; [apply Rabs_triang|]. lra. }
    destruct (step_nonneg c s x T) as (g1 & g2 & g3 & b & e2 & b4 & e & he & r1); auto; [lra|]. splits; auto.
    + lra.
    + apply Rle_trans with ((real s + real x) * (1 + u)); [lra|]. replace ((1 + u) * G * (real r + (real_sum es + real x))) with (G * (A + real x) * (1 + u)) by (unfold A; ring). apply Rmult_le_compat_r; lra.
    + exists (E + b). assert (bEb : Rabs (E + b) <= 2 * (N + 1) * u * T) by (eapply Rle_trans; [apply Rabs_triang|]; lra). splits; [unfold A in e1; lra|exact bEb|].
      rewrite r1. replace ((real c + b) * (1 + e) - (E + b)) with ((real c - E) * (1 + e) + (E + b) * e) by ring. eapply Rle_trans; [apply Rabs_triang|].
      assert (Rabs ((real c - E) * (1 + e)) <= D * (1 + u)). { apply Rabs_prod_le; [exact b3|]. eapply Rle_trans; [apply Rabs_triang|]. rewrite Rabs_R1. lra. }
      assert (Rabs ((E + b) * e) <= 2 * (N + 1) * u * T * u) by (apply Rabs_prod_le; auto).
      set (q := u * u * T) in *. assert (0 <= q) by (unfold q; nra).
      assert (2 * (N + 1) * u * T * u = 2 * q * (N + 1)) by (unfold q; ring).
      assert (2 * q * (N + 1) <= 2 * q * (2 * N + 1) * ((1 + u) * G)).
      { assert (1 <= (1 + u) * G) by nra. assert (0 <= 2 * q * (2 * N + 1)) by nra. assert (2 * q * (N + 1) <= 2 * q * (2 * N + 1)) by nra. nra. }
      replace (2 * q * ((N + 1) * (N + 1)) * ((1 + u) * G)) with (D * (1 + u) + 2 * q * (2 * N + 1) * ((1 + u) * G)) by (unfold D; ring). lra.
Qed.
Lemma run_nonneg_result T r es : T = real r + real_sum es -> T <= B 999 -> finite r -> 0 <= real r -> Forall finite es -> Forall (fun x => 0 <= real x) es -> few (length es) ->
  finite (fadd (fst (run r es)) (snd (run r es))) /\
  Rabs (real (fadd (fst (run r es)) (snd (run r es))) - T) <= (u + 5 * (INR (S (length es)) * u) ^ 2) * T.
Proof.
  intros hT hT' hr pr hf hp hn. assert (0 <= real_sum es). { clear - hp. induction hp; cbn [real_sum]; lra. }
  assert (q : 0 <= T <= B 999) by lra.
  destruct (run_nonneg T r q hr pr es hf hp hn ltac:(lra)) as (f1 & f2 & b1 & E & e1 & b2 & b3). pose proof (few_u _ hn) as fu. pose proof (growth_2 _ hn) as g.
  destruct (run r es) as [c s]. cbn [fst snd] in *. rewrite S_INR. set (N := INR (length es)) in *. pose proof (pos_INR (length es)). fold N in H0. pose proof u_pos. pose proof u_16. pose proof big_1000.
  set (G := (1 + u) ^ length es) in *. set (D := 2 * (u * u * T) * (N * N) * G) in *.
  assert (b999 : 2 * B 999 = B 1000) by (change 1000%Z with (1 + 999)%Z; rewrite bpow_plus; reflexivity).
  assert (0 <= N * u) by nra.
  assert (hD : 0 <= D <= 4 * ((N * u) * (N * u)) * T). { unfold D. replace (2 * (u * u * T) * (N * N) * G) with (2 * ((N * u) * (N * u)) * (T * G)) by ring. assert (0 <= (N * u) * (N * u)) by nra. assert (0 <= T * G <= 2 * T) by nra. split; nra. }
  assert (hs : Rabs (real c + real s) <= T + D). { replace (real c + real s) with ((real c - E) + T) by lra. eapply Rle_trans; [apply Rabs_triang|]. rewrite (Rabs_pos_eq T) by lra. lra. }
  assert (0 <= (N * u) * (N * u) <= / 64) by nra.
  destruct (fadd_ok c s f1 f2) as (f3 & _ & e & he & r1); [nra|]. split; [exact f3|]. rewrite r1.
  replace ((real c + real s) * (1 + e) - T) with ((real c - E) + (real c + real s) * e) by lra. eapply Rle_trans; [apply Rabs_triang|].
  assert (Rabs ((real c + real s) * e) <= (T + D) * u) by (apply Rabs_prod_le; auto).
  assert (((N + 1) * u) ^ 2 >= (N * u) * (N * u)) by nra. set (M := (N * u) * (N * u)) in *. set (M' := ((N + 1) * u) ^ 2) in *.
  assert (D * (1 + u) <= 5 * M * T). { assert (0 <= M * T) by nra. assert (D <= 4 * (M * T)) by lra. nra. }
  assert (5 * M * T <= 5 * M' * T) by nra. lra.
Qed.

Lemma nth_error_rev_lt {A} (l : list A) i : (i < length l)%nat -> nth_error (rev l) i = nth_error l (length l - 1 - i).
Proof.
  intros h. destruct l as [|d l0] eqn:e; [cbn in h; lia|]. rewrite <- e in *. rewrite (nth_error_nth' (rev l) d) by (rewrite rev_length; lia). rewrite (nth_error_nth' l d) by lia.
  f_equal. rewrite rev_nth by exact h. f_equal. lia.
Qed.
Lemma firstn_snoc {A} (l : list A) k x : nth_error l k = Some x -> firstn (S k) l = firstn k l ++ [x].
Proof. revert l. induction k as [|k IH]; intros [|y l] h; cbn in h |- *; try discriminate; [congruence|]. f_equal. apply IH. exact h. Qed.
Lemma sum64_run numbers len : (1 <= len <= length numbers)%nat ->
  exists r es, nth_error numbers (len - 1) = Some r /\ es = rev (firstn (len - 1) numbers) /\ sum64 numbers len = Some (fadd (fst (run r es)) (snd (run r es))).
Proof.
  intros h. destruct (nth_error numbers (len - 1)) as [r|] eqn:er; [|apply nth_error_None in er; lia]. exists r, (rev (firstn (len - 1) numbers)). splits; auto.
  set (es := rev (firstn (len - 1) numbers)). assert (les : length es = (len - 1)%nat) by (unfold es; rewrite rev_length, firstn_length; lia).
  unfold sum64, need. replace (0 <? len)%nat with true by (symmetry; apply Nat.ltb_lt; lia). cbn [bind]. unfold aget at 1. rewrite er. cbn [bind].
  destruct (for_inv (fun k s => s = run r (firstn k es)) (fun k s => element <- aget numbers (len - 2 - k) ;; Some (sum_step element s)) 0 (len - 1) (fzero, r)) as (s & e & hs).
  - lia.
  - reflexivity.
  - intros k s hk ->. unfold aget. assert (ek : nth_error es k = nth_error numbers (len - 2 - k)).
    { unfold es. rewrite nth_error_rev_lt; rewrite firstn_length, Nat.min_l by lia; [|lia]. rewrite nth_error_firstn by lia. f_equal. lia. }
    destruct (nth_error numbers (len - 2 - k)) as [x|] eqn:ex; [|apply nth_error_None in ex; lia]. cbn [bind]. eexists. split; [reflexivity|]. rewrite (firstn_snoc _ _ _ ek). symmetry. apply run_app.
  - rewrite e. cbn [bind]. subst s. rewrite firstn_all2 by lia. destruct (run r es). reflexivity.
Qed.
Lemma firstn_last {A} (l : list A) n x : (1 <= n)%nat -> nth_error l (n - 1) = Some x -> firstn n l = firstn (n - 1) l ++ [x].
Proof. intros h e. rewrite <- (firstn_snoc _ _ _ e). f_equal. lia. Qed.
Lemma real_sum_rev l : real_sum (rev l) = real_sum l.
Proof. induction l as [|x l IH]; cbn [rev real_sum]; [reflexivity|]. rewrite real_sum_app, IH. cbn [real_sum]. lra. Qed.
Lemma real_abs_sum_rev l : real_abs_sum (rev l) = real_abs_sum l.
Proof. induction l as [|x l IH]; cbn [rev real_abs_sum]; [reflexivity|]. rewrite real_abs_sum_app, IH. cbn [real_abs_sum]. lra. Qed.
Lemma sum64_general numbers len : (1 <= len <= length numbers)%nat -> INR len <= IZR (2 ^ 50) -> Forall finite (firstn len numbers) -> real_abs_sum (firstn len numbers) <= B 1000 ->
  exists s, sum64 numbers len = Some s /\ finite s /\ Rabs (real s - real_sum (firstn len numbers)) <= 12 * INR len * u * real_abs_sum (firstn len numbers).
Proof.
  intros h hn hf hb. destruct (sum64_run numbers len h) as (r & es & er & ees & e). rewrite (firstn_last _ _ _ (proj1 h) er) in *. apply Forall_app in hf. destruct hf as [hf hr]. pose proof (Forall_inv hr) as fr.
  rewrite real_abs_sum_app in *. rewrite real_sum_app. cbn [real_sum real_abs_sum] in *. rewrite Rplus_0_r in hb. rewrite !Rplus_0_r.
  assert (les : S (length es) = len) by (subst es; rewrite rev_length, firstn_length; lia).
  pose proof (real_abs_sum_pos (firstn (len - 1) numbers)). pose proof (Rabs_pos (real r)).
  destruct (run_general_result (real_abs_sum (firstn (len - 1) numbers) + Rabs (real r)) r es) as [g1 g2]; auto.
  - lra.
  - subst es. apply Forall_rev. exact hf.
  - apply few_S. unfold few. rewrite les. exact hn.
  - subst es. rewrite real_abs_sum_rev. lra.
  - eexists. split; [exact e|]. split; [exact g1|]. rewrite les in g2. subst es. rewrite real_sum_rev in *. rewrite (Rplus_comm (real_sum _) (real r)). exact g2.
Qed.
Lemma sum64_nonneg numbers len : (1 <= len <= length numbers)%nat -> INR len <= IZR (2 ^ 50) -> Forall finite (firstn len numbers) -> Forall (fun x => 0 <= real x) (firstn len numbers) ->
  real_sum (firstn len numbers) <= B 999 ->
  exists s, sum64 numbers len = Some s /\ finite s /\ Rabs (real s - real_sum (firstn len numbers)) <= (u + 5 * (INR len * u) ^ 2) * real_sum (firstn len numbers).
Proof.
  intros h hn hf hp hb. destruct (sum64_run numbers len h) as (r & es & er & ees & e). rewrite (firstn_last _ _ _ (proj1 h) er) in *. apply Forall_app in hf, hp.
  destruct hf as [hf hr]. pose proof (Forall_inv hr) as fr. destruct hp as [hp hr']. pose proof (Forall_inv hr') as fr'.
  rewrite real_sum_app in *. cbn [real_sum] in *. rewrite Rplus_0_r in hb. rewrite !Rplus_0_r.
  assert (les : S (length es) = len) by (subst es; rewrite rev_length, firstn_length; lia).
  destruct (run_nonneg_result (real_sum (firstn (len - 1) numbers) + real r) r es) as [g1 g2]; auto.
  - subst es. rewrite real_sum_rev. lra.
  - subst es. apply Forall_rev. exact hf.
  - subst es. apply Forall_rev. exact hp.
  - apply few_S. unfold few. rewrite les. exact hn.
  - eexists. split; [exact e|]. split; [exact g1|]. rewrite les in g2. exact g2.
Qed.
