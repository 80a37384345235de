From Verif Require Import Base MiscModel MiscSpec.
From Coq Require Import QArith Qround Qminmax Lqa ZifyBool ZifyNat.
Open Scope nat_scope.

(** ** powers *)
Lemma u32_mul_l a b : u32 (u32 a * b) = u32 (a * b).
Proof. unfold u32. apply Zmult_mod_idemp_l. Qed.
Lemma u32_mul_r a b : u32 (a * u32 b) = u32 (a * b).
Proof. unfold u32. apply Zmult_mod_idemp_r. Qed.
Lemma u32_idem a : u32 (u32 a) = u32 a.
Proof. unfold u32. apply Z.mod_mod. discriminate. Qed.

Lemma u32_pow_base a b n : (0 <= n)%Z -> u32 (a * u32 b ^ n) = u32 (a * b ^ n).
Proof.
  intro Hn. revert a. pattern n. apply natlike_ind; auto; clear n Hn.
  intros n Hn IH a. rewrite !Z.pow_succ_r by lia.
  replace (a * (u32 b * u32 b ^ n))%Z with ((a * u32 b) * u32 b ^ n)%Z by ring. rewrite IH.
  replace (a * u32 b * b ^ n)%Z with ((a * b ^ n) * u32 b)%Z by ring. rewrite u32_mul_r. f_equal. ring.
Qed.

Lemma expt_loop_correct : forall fuel a base exp, (0 <= exp < 2 ^ Z.of_nat fuel)%Z -> 0 < fuel -> (0 <= a < two32)%Z ->
  expt_loop fuel a base exp = Some (u32 (a * base ^ exp)).
Proof.
  induction fuel as [|fuel IH]; intros a base exp He Hf Ha; [lia|]. cbn [expt_loop].
  replace (Z.land exp 1) with (exp mod 2)%Z by (symmetry; apply (Z.land_ones exp 1); lia). rewrite Z.shiftr_div_pow2 by lia. change (2 ^ 1)%Z with 2%Z.
  pose proof (Z.div_mod exp 2 ltac:(lia)) as DM. pose proof (Z.mod_pos_bound exp 2 ltac:(lia)) as MB.
  set (e := (exp / 2)%Z) in *.
  assert (He2 : (0 <= e)%Z) by lia.
  assert (STEP : forall a', (0 <= a' < two32)%Z -> (if (e =? 0)%Z then Some a' else expt_loop fuel a' (u32 (base * base)) e) = Some (u32 (a' * (base * base) ^ e))).
  { intros a' Ha'. destruct (Z.eqb_spec e 0) as [E|E].
    - rewrite E. cbn [Z.pow]. rewrite Z.mul_1_r. f_equal. symmetry. now apply u32_small.
    - rewrite IH; auto.
      + now rewrite u32_pow_base.
      + rewrite Nat2Z.inj_succ, Z.pow_succ_r in He by lia. lia.
      + destruct fuel; [|lia]. cbn in He. lia. }
  destruct (Z.eqb_spec (exp mod 2) 0) as [E|E].
  - rewrite STEP by assumption. f_equal. f_equal. f_equal. rewrite DM, E, Z.add_0_r.
    rewrite <- Z.pow_2_r, <- Z.pow_mul_r by lia. reflexivity.
  - rewrite STEP by apply u32_range. rewrite u32_mul_l. f_equal. f_equal.
    rewrite DM. assert (exp mod 2 = 1)%Z by lia. rewrite H. rewrite Z.pow_add_r, Z.pow_1_r by lia.
    rewrite <- Z.pow_2_r, <- Z.pow_mul_r by lia. ring.
Qed.

Lemma expt_correct base exp : (0 <= exp < two32)%Z -> time_expt base exp = Some ((base ^ exp) mod two32)%Z.
Proof.
  intro H. unfold time_expt. rewrite expt_loop_correct; [|exact H|lia|unfold two32; lia]. f_equal. unfold u32. now rewrite Z.mul_1_l.
Qed.

Lemma factorial_loop_correct n : forall r, (0 <= r < two32)%Z -> factorial_loop n r = u32 (r * factorial n).
Proof.
  induction n as [|n IH]; intros r Hr; cbn [factorial_loop factorial].
  - rewrite Z.mul_1_r. symmetry. now apply u32_small.
  - rewrite IH by apply u32_range. rewrite u32_mul_l. f_equal. ring.
Qed.
Lemma factorial_correct n : time_factorial n = ((factorial n) mod two32)%Z.
Proof. unfold time_factorial. rewrite factorial_loop_correct by (unfold two32; lia). unfold u32. f_equal. ring. Qed.

Lemma counts_correct :
  (forall n k, 0 <= n -> 0 <= k < two32 -> n ^ k < two32 -> 0 < n -> set_sequence_max n k = Some (n ^ k))%Z /\
  (forall n, 1 <= n <= 32 -> compositions_max n = Some (2 ^ (n - 1)))%Z.
Proof.
  split.
  - intros n k Hn Hk Hp H0. unfold set_sequence_max. destruct (Z.eqb_spec n 0); [lia|]. rewrite expt_correct by lia.
    f_equal. apply Z.mod_small. split; [apply Z.pow_nonneg; lia|exact Hp].
  - intros n Hn. unfold compositions_max. rewrite u32_small by (unfold two32; lia). rewrite expt_correct by (unfold two32; lia).
    f_equal. apply Z.mod_small. split; [apply Z.pow_nonneg; lia|]. change two32 with (2 ^ 32)%Z. apply Z.pow_lt_mono_r; lia.
Qed.

(** ** phase *)
Lemma phase_bound current change cycle : (0 < cycle)%Z -> exists p, phase current change cycle = Some p /\ (0 <= p < cycle)%Z.
Proof.
  intro H. unfold phase. pose proof (u32_range (current + change)). destruct (Z.ltb_spec (u32 (current + change)) cycle).
  - eexists; split; [reflexivity|lia].
  - destruct (Z.eqb_spec cycle 0); [lia|]. eexists; split; [reflexivity|]. apply Z.mod_pos_bound. lia.
Qed.
Lemma phase_correct current change cycle : (0 < cycle)%Z -> (0 <= current + change < two32)%Z ->
  phase current change cycle = Some ((current + change) mod cycle)%Z.
Proof.
  intros H1 H2. unfold phase. rewrite u32_small by exact H2. destruct (Z.ltb_spec (current + change) cycle).
  - f_equal. symmetry. apply Z.mod_small. lia.
  - destruct (Z.eqb_spec cycle 0); [lia|]. reflexivity.
Qed.

Lemma zsum_app a b : zsum (a ++ b) = (zsum a + zsum b)%Z.
Proof. unfold zsum. induction a; cbn; lia. Qed.

Lemma phases_correct cycle : (0 < cycle)%Z -> forall changes current, (0 <= current < cycle)%Z ->
  Forall (fun c => 0 <= c /\ cycle + c <= two32)%Z changes ->
  phases current changes cycle = Some ((current + zsum changes) mod cycle)%Z.
Proof.
  intro Hc. induction changes as [|c rest IH]; intros current H HF; cbn [phases zsum fold_right].
  - rewrite Z.add_0_r. f_equal. symmetry. now apply Z.mod_small.
  - inversion HF as [|? ? H1 H2]; subst. rewrite phase_correct by lia. cbn [bind].
    rewrite IH; [|apply Z.mod_pos_bound; lia|exact H2]. f_equal. fold (zsum rest). rewrite Zplus_mod_idemp_l. f_equal. lia.
Qed.

Lemma wave_correct (V : Type) (add mul : V -> V -> V) (size : nat) (wvf : list V) (amp : V) (amod : option (list V))
  (frq : Z) (fmod : option (list Z)) (phs : option Z) (out : list V) (start : Z) (frequency : nat -> Z) (amplitude : nat -> V) :
  0 < length wvf -> (Z.of_nat (length wvf) <= two32)%Z -> length out = size ->
  match phs with Some p => p | None => 0%Z end = start -> (0 <= start < Z.of_nat (length wvf))%Z ->
  (forall i, i < size -> optional_get fmod frq i = Some (frequency i)) ->
  (forall i, i < size -> optional_get amod amp i = Some (amplitude i)) ->
  (forall i : nat, (i < size)%nat -> 0 <= frequency i /\ Z.of_nat (length wvf) + frequency i <= two32)%Z ->
  exists out',
  wave V add mul size wvf (Z.of_nat (length wvf)) amp amod frq fmod phs out =
    Some (out', match phs with Some _ => Some (phase_at start frequency (Z.of_nat (length wvf)) size) | None => None end) /\
  length out' = size /\
  forall i o w, i < size -> nth_error out i = Some o -> nth_error wvf (Z.to_nat (phase_at start frequency (Z.of_nat (length wvf)) i)) = Some w ->
    nth_error out' i = Some (add o (mul (mul amp (amplitude i)) w)).
Proof.
  intros HW HW2 HO HP HS HF HA HFB. unfold wave. rewrite HP. set (N := Z.of_nat (length wvf)) in *.
  assert (PB : forall i, (0 <= phase_at start frequency N i < N)%Z) by (intro; apply Z.mod_pos_bound; lia).
  destruct (for_inv (fun i '(out', p) => length out' = size /\ p = phase_at start frequency N i /\
    (forall j, i <= j -> nth_error out' j = nth_error out j) /\
    (forall j o w, j < i -> nth_error out j = Some o -> nth_error wvf (Z.to_nat (phase_at start frequency N j)) = Some w ->
       nth_error out' j = Some (add o (mul (mul amp (amplitude j)) w))))
    (fun i '(out, phs) =>
    a <- optional_get amod amp i ;;
    w <- aget wvf (Z.to_nat phs) ;;
    o <- aget out i ;;
    out <- aset out i (add o (mul (mul amp a) w)) ;;
    f <- optional_get fmod frq i ;;
    let phs := u32 (phs + f) in
    if (N <=? phs)%Z then if (N =? 0)%Z then None else Some (out, (phs mod N)%Z)
    else Some (out, phs)) 0 size (out, start)) as [[out' p] [E [L [Ep [_ HR]]]]].
  - lia.
  - splits; auto.
    + unfold phase_at. cbn. rewrite Z.add_0_r. symmetry. now apply Z.mod_small.
    + intros; lia.
  - intros i [out' p] Hi [L [-> [HG HR]]]. rewrite HA by lia. cbn [bind]. pose proof (PB i) as Pi.
    destruct (nth_error_some wvf (Z.to_nat (phase_at start frequency N i))) as [w Hw]; [lia|].
    destruct (nth_error_some out i) as [o Ho]; [lia|].
    unfold aget. rewrite Hw. cbn [bind]. rewrite HG, Ho by lia. cbn [bind].
    destruct (aset_some out' i (add o (mul (mul amp (amplitude i)) w))) as [out2 E2]; [lia|]. rewrite E2. cbn [bind].
    rewrite HF by lia. cbn [bind]. destruct (HFB i) as [F1 F2]; [lia|]. cbn zeta. rewrite u32_small by lia.
    assert (PS : ((phase_at start frequency N i + frequency i) mod N)%Z = phase_at start frequency N (S i)).
    { unfold phase_at. rewrite seq_S, map_app, zsum_app. cbn [map zsum fold_right Nat.add]. rewrite Zplus_mod_idemp_l. f_equal. lia. }
    assert (RES : forall j o' w', j < S i -> nth_error out j = Some o' -> nth_error wvf (Z.to_nat (phase_at start frequency N j)) = Some w' ->
       nth_error out2 j = Some (add o' (mul (mul amp (amplitude j)) w'))).
    { intros j o' w' Hj Ho' Hw'. rewrite (aset_get _ _ _ _ j E2). destruct (Nat.eqb_spec j i) as [->|].
      - congruence.
      - apply HR; auto; lia. }
    assert (REST : forall j, S i <= j -> nth_error out2 j = nth_error out j).
    { intros j Hj. rewrite (aset_get _ _ _ _ j E2). destruct (Nat.eqb_spec j i); [lia|]. apply HG. lia. }
    destruct (Z.leb_spec N (phase_at start frequency N i + frequency i)).
    + destruct (Z.eqb_spec N 0); [lia|]. eexists. split; [reflexivity|]. cbn beta iota. rewrite (aset_length _ _ _ _ E2). auto.
    + eexists. split; [reflexivity|]. cbn beta iota. rewrite (aset_length _ _ _ _ E2). split; [exact L|]. split; [|auto].
      rewrite <- PS. symmetry. apply Z.mod_small. lia.
  - unfold N in *. rewrite E. cbn [bind]. rewrite Ep. exists out'. splits; auto.
Qed.

(** ** triangle, square, pan *)
Lemma inject_pos z : (0 < z)%Z -> (0 < inject_Z z)%Q.
Proof. intro H. change 0%Q with (inject_Z 0). rewrite <- Zlt_Qlt. exact H. Qed.

Lemma triangle_correct t a b : (0 <= t)%Z -> (0 <= a)%Z -> (0 <= b)%Z -> (0 < a + b < two32)%Z ->
  exists y, triangle t a b = Some y /\ (0 <= y <= 1)%Q /\
  ((t mod (a + b) < a)%Z -> (y * inject_Z a == inject_Z (t mod (a + b)))%Q) /\
  ((a <= t mod (a + b))%Z -> (y * inject_Z b == inject_Z (a + b - t mod (a + b)))%Q).
Proof.
  intros Ht Ha Hb Hab. unfold triangle. rewrite u32_small by lia. destruct (Z.eqb_spec (a + b) 0); [lia|].
  pose proof (Z.mod_pos_bound t (a + b) ltac:(lia)) as HR. set (r := (t mod (a + b))%Z) in *.
  destruct (Z.ltb_spec r a).
  - eexists. split; [reflexivity|].
    assert (PA : (0 < inject_Z a)%Q) by (apply inject_pos; lia).
    assert (E : (inject_Z r * (1 / inject_Z a) * inject_Z a == inject_Z r)%Q) by (field; lra).
    assert (R0 : (0 <= inject_Z r)%Q) by (change 0%Q with (inject_Z 0); rewrite <- Zle_Qle; lia).
    assert (R1 : (inject_Z r <= inject_Z a)%Q) by (rewrite <- Zle_Qle; lia).
    splits.
    + apply Qmult_le_0_compat; auto. unfold Qdiv. rewrite Qmult_1_l. apply Qinv_le_0_compat. lra.
    + apply Qmult_le_r with (inject_Z a); auto. rewrite E, Qmult_1_l. exact R1.
    + intros _. exact E.
    + intro; lia.
  - eexists. split; [reflexivity|].
    assert (PB : (0 < inject_Z b)%Q) by (apply inject_pos; lia).
    assert (EQ : (inject_Z b - (inject_Z r - inject_Z a) == inject_Z (a + b - r))%Q).
    { unfold Zminus. rewrite !inject_Z_plus, inject_Z_opp. ring. }
    assert (E : ((inject_Z b - (inject_Z r - inject_Z a)) * (1 / inject_Z b) * inject_Z b == inject_Z (a + b - r))%Q) by (rewrite <- EQ; field; lra).
    assert (R0 : (0 <= inject_Z (a + b - r))%Q) by (change 0%Q with (inject_Z 0); rewrite <- Zle_Qle; lia).
    assert (R1 : (inject_Z (a + b - r) <= inject_Z b)%Q) by (rewrite <- Zle_Qle; lia).
    splits.
    + apply Qmult_le_r with (inject_Z b); auto. rewrite E, Qmult_0_l. exact R0.
    + apply Qmult_le_r with (inject_Z b); auto. rewrite E, Qmult_1_l. exact R1.
    + intro; lia.
    + intros _. exact E.
Qed.

Lemma triangle_periodic t a b : (0 < a + b < two32)%Z -> triangle (t + (a + b)) a b = triangle t a b.
Proof.
  intro H. unfold triangle. rewrite u32_small by lia. destruct (Z.eqb_spec (a + b) 0); [lia|].
  replace ((t + (a + b)) mod (a + b))%Z with (t mod (a + b))%Z; [reflexivity|].
  symmetry. replace (t + (a + b))%Z with (t + 1 * (a + b))%Z by lia. apply Z.mod_add. lia.
Qed.

Lemma square_correct t size : (0 <= 2 * t < two32)%Z -> (0 < size)%Z -> (2 * size < two32)%Z ->
  square t size = Some (if 2 * (t mod size) <? size then -1 else 1)%Z.
Proof.
  intros Ht Hs Hs2. unfold square. rewrite !u32_small by lia. destruct (Z.eqb_spec (2 * size) 0); [lia|].
  rewrite Z.mul_mod_distr_l by lia. reflexivity.
Qed.

Lemma Qlt_bool_iff x y : Qlt_bool x y = true <-> (x < y)%Q.
Proof. unfold Qlt_bool. rewrite negb_true_iff. rewrite <- not_true_iff_false, Qle_bool_iff. split; [apply Qnot_le_lt|apply Qlt_not_le]. Qed.
Lemma Qlt_bool_false x y : Qlt_bool x y = false <-> (y <= x)%Q.
Proof. unfold Qlt_bool. rewrite negb_false_iff. apply Qle_bool_iff. Qed.

Lemma inline_limit_spec x lo hi : (lo <= hi)%Q -> (lo <= inline_limit x lo hi <= hi)%Q /\
  ((lo <= x <= hi)%Q -> (inline_limit x lo hi == x)%Q) /\ ((x <= lo)%Q -> (inline_limit x lo hi == lo)%Q) /\ ((hi <= x)%Q -> (inline_limit x lo hi == hi)%Q).
Proof.
  intro H. unfold inline_limit. destruct (Qlt_bool hi x) eqn:E1.
  - apply Qlt_bool_iff in E1. destruct (Qlt_bool hi lo) eqn:E2.
    + apply Qlt_bool_iff in E2. exfalso. lra.
    + splits; try lra; intros; lra.
  - apply Qlt_bool_false in E1. destruct (Qlt_bool x lo) eqn:E2.
    + apply Qlt_bool_iff in E2. splits; try lra; intros; lra.
    + apply Qlt_bool_false in E2. splits; try lra; intros; lra.
Qed.
Lemma inline_limit_mono x y lo hi : (lo <= hi)%Q -> (x <= y)%Q -> (inline_limit x lo hi <= inline_limit y lo hi)%Q.
Proof.
  intros H Hxy. unfold inline_limit.
  destruct (Qlt_bool hi x) eqn:E1, (Qlt_bool hi y) eqn:E2; try apply Qlt_bool_iff in E1; try apply Qlt_bool_false in E1;
  try apply Qlt_bool_iff in E2; try apply Qlt_bool_false in E2; 
  match goal with |- context [if Qlt_bool ?a lo then _ else _] => destruct (Qlt_bool a lo) eqn:E3 end;
  try (match goal with |- context [if Qlt_bool ?a lo then _ else _] => destruct (Qlt_bool a lo) eqn:E4 end);
  try apply Qlt_bool_iff in E3; try apply Qlt_bool_false in E3; try apply Qlt_bool_iff in E4; try apply Qlt_bool_false in E4; lra.
Qed.

Lemma pan_correct value : 
  (0 <= pan_to_amp value 0 <= 1)%Q /\ (0 <= pan_to_amp value 1 <= 1)%Q /\
  (value <= 1 # 2 -> pan_to_amp value 0 == 1)%Q /\ (1 # 2 <= value <= 1 -> pan_to_amp value 0 == 2 - 2 * value)%Q /\ (1 <= value -> pan_to_amp value 0 == 0)%Q /\
  (value <= 0 -> pan_to_amp value 1 == 0)%Q /\ (0 <= value <= 1 # 2 -> pan_to_amp value 1 == 2 * value)%Q /\ (1 # 2 <= value -> pan_to_amp value 1 == 1)%Q.
Proof.
  unfold pan_to_amp. cbn [Z.odd].
  assert (E0 : ((inline_limit value (inject_Z 0 + (1 # 2)) (inject_Z 0 + 1) - (1 # 2)) / (1 # 2) == 2 * inline_limit value (inject_Z 0 + (1 # 2)) (inject_Z 0 + 1) - 1)%Q) by field.
  assert (E1 : (inline_limit value (inject_Z 1 - 1) (inject_Z 1 - (1 # 2)) / (1 # 2) == 2 * inline_limit value (inject_Z 1 - 1) (inject_Z 1 - (1 # 2)))%Q) by field.
  rewrite E0, E1. clear E0 E1.
  assert (I0 : (inject_Z 0 == 0)%Q) by reflexivity. assert (I1 : (inject_Z 1 == 1)%Q) by reflexivity.
  destruct (inline_limit_spec value (inject_Z 0 + (1 # 2)) (inject_Z 0 + 1)) as [A1 [A2 [A3 A4]]]; [lra|].
  destruct (inline_limit_spec value (inject_Z 1 - 1) (inject_Z 1 - (1 # 2))) as [B1 [B2 [B3 B4]]]; [lra|].
  splits; try lra.
Qed.

Lemma pan_monotone x y : (x <= y)%Q -> (pan_to_amp y 0 <= pan_to_amp x 0)%Q /\ (pan_to_amp x 1 <= pan_to_amp y 1)%Q.
Proof.
  intro H. unfold pan_to_amp. cbn [Z.odd].
  assert (I0 : (inject_Z 0 == 0)%Q) by reflexivity. assert (I1 : (inject_Z 1 == 1)%Q) by reflexivity.
  pose proof (inline_limit_mono x y (inject_Z 0 + (1 # 2)) (inject_Z 0 + 1) ltac:(lra) H) as M0.
  pose proof (inline_limit_mono x y (inject_Z 1 - 1) (inject_Z 1 - (1 # 2)) ltac:(lra) H) as M1.
  set (a := inline_limit x (inject_Z 0 + (1 # 2)) (inject_Z 0 + 1)) in *. set (b := inline_limit y (inject_Z 0 + (1 # 2)) (inject_Z 0 + 1)) in *.
  set (c := inline_limit x (inject_Z 1 - 1) (inject_Z 1 - (1 # 2))) in *. set (d := inline_limit y (inject_Z 1 - 1) (inject_Z 1 - (1 # 2))) in *.
  assert (D : forall z, (z / (1 # 2) == 2 * z)%Q) by (intro; field). rewrite !D. lra.
Qed.

(** ** harmonize *)
Lemma time_of_between lo hi x : (0 <= lo)%Z -> (hi < two32)%Z -> (inject_Z lo <= x <= inject_Z hi)%Q ->
  exists z, time_of x = Some z /\ (lo <= z <= hi)%Z /\ z = Qfloor x.
Proof.
  intros Hlo Hhi [H1 H2]. unfold time_of.
  assert (H0 : (0 <= x)%Q) by (apply Qle_trans with (inject_Z lo); auto; change 0%Q with (inject_Z 0); rewrite <- Zle_Qle; exact Hlo).
  rewrite (proj2 (Qle_bool_iff _ _) H0).
  assert (F1 : (lo <= Qfloor x)%Z) by (rewrite <- (Qfloor_Z lo); now apply Qfloor_resp_le).
  assert (F2 : (Qfloor x <= hi)%Z) by (rewrite <- (Qfloor_Z hi); now apply Qfloor_resp_le).
  replace (Qfloor x <? two32)%Z with true by lia. exists (Qfloor x). auto.
Qed.

Definition next_multiple (a base : Z) : Z := ((a + base - 1) / base * base)%Z.
Lemma next_multiple_spec a base : (0 <= a)%Z -> (0 < base)%Z -> (a <= next_multiple a base < a + base)%Z /\ (base | next_multiple a base)%Z.
Proof.
  intros Ha Hb. unfold next_multiple. pose proof (Z.div_mod (a + base - 1) base ltac:(lia)). pose proof (Z.mod_pos_bound (a + base - 1) base ltac:(lia)).
  split; [lia|]. exists ((a + base - 1) / base)%Z. ring.
Qed.

Lemma harmonize_correct a base amount : (0 <= a)%Z -> (0 < base)%Z -> (a + base < two32)%Z -> (0 <= amount <= 1)%Q ->
  exists z, harmonize a base amount = Some z /\ (a <= z <= next_multiple a base)%Z /\
  ((amount == 0)%Q -> z = a) /\ ((amount == 1)%Q -> z = next_multiple a base).
Proof.
  intros Ha Hb Hab Hm. destruct (next_multiple_spec a base Ha Hb) as [HN _]. unfold harmonize. destruct (Z.eqb_spec base 0); [lia|].
  rewrite (u32_small (a + base)) by lia. rewrite (u32_small (a + base - 1)) by lia.
  fold (next_multiple a base). rewrite u32_small by lia.
  replace (next_multiple a base <? a)%Z with false by lia. rewrite u32_small by lia.
  set (d := (next_multiple a base - a)%Z) in *.
  assert (D0 : (0 <= inject_Z d)%Q) by (change 0%Q with (inject_Z 0); rewrite <- Zle_Qle; lia).
  assert (ND : (inject_Z (next_multiple a base) == inject_Z a + inject_Z d)%Q) by (rewrite <- inject_Z_plus; unfold d; replace (a + (next_multiple a base - a))%Z with (next_multiple a base) by lia; reflexivity).
  destruct (time_of_between a (next_multiple a base) (inject_Z a + amount * inject_Z d)%Q) as [z [E [B F]]]; try lia.
  { rewrite ND. assert (0 <= amount * inject_Z d)%Q by (apply Qmult_le_0_compat; lra).
    assert (amount * inject_Z d <= 1 * inject_Z d)%Q by (apply Qmult_le_compat_r; lra). lra. }
  exists z. splits; auto; try lia.
  - intro H. rewrite F. rewrite <- (Qfloor_Z a) at 2. apply Qfloor_comp. rewrite H. ring.
  - intro H. rewrite F. rewrite <- (Qfloor_Z (next_multiple a base)). apply Qfloor_comp. rewrite H, ND. ring.
Qed.

Lemma round_to_multiple_is_identity a base : (0 < a)%Z -> (a < two32)%Z -> (0 < base)%Z -> round_to_multiple a base = Some a.
Proof.
  intros Ha Ha2 Hb. unfold round_to_multiple. destruct (Z.eqb_spec a 0); [lia|]. destruct (Z.eqb_spec base 0); [lia|].
  unfold cheap_round. assert (PB : (0 < inject_Z base)%Q) by now apply inject_pos.
  assert (E : ((1 # 2) + inject_Z a / inject_Z base * inject_Z base == (1 # 2) + inject_Z a)%Q) by (field; lra).
  unfold time_of.
  assert (F : Qfloor ((1 # 2) + inject_Z a / inject_Z base * inject_Z base) = a).
  { rewrite (Qfloor_comp _ _ E). clear. unfold Qfloor, Qplus, inject_Z. cbn [Qnum Qden]. change (Z.pos (2 * 1)) with 2%Z.
    replace (1 * 1 + a * 2)%Z with (1 + a * 2)%Z by lia. rewrite Z.div_add by lia. reflexivity. }
  rewrite F. replace (a <? two32)%Z with true by lia.
  assert (P0 : (0 <= (1 # 2) + inject_Z a / inject_Z base * inject_Z base)%Q) by (rewrite E; pose proof (inject_pos a Ha); lra).
  rewrite (proj2 (Qle_bool_iff _ _) P0). reflexivity.
Qed.

(** ** modulo match *)
Lemma modulo_match_loop_correct index divisors : forall i, Forall (fun d => d <> 0%Z) divisors ->
  (exists k, modulo_match_loop index divisors i = Some (Some (i + k)) /\
     (exists d, nth_error divisors k = Some d /\ (d | index)%Z) /\
     (forall j d, j < k -> nth_error divisors j = Some d -> ~ (d | index)%Z)) \/
  (modulo_match_loop index divisors i = Some None /\ Forall (fun d => ~ (d | index)%Z) divisors).
Proof.
  induction divisors as [|d rest IH]; intros i HF; [right; auto|]. inversion HF as [|? ? Hd HF2]; subst. cbn [modulo_match_loop].
  destruct (Z.eqb_spec d 0); [contradiction|]. destruct (Z.eqb_spec (index mod d) 0) as [E|E].
  - left. exists 0. rewrite Nat.add_0_r. splits; auto.
    + exists d. split; auto. apply Z.mod_divide; auto.
    + intros; lia.
  - assert (Hn : ~ (d | index)%Z) by (intro HD; apply E; now apply Z.mod_divide).
    destruct (IH (S i) HF2) as [[k [E1 [E2 E3]]]|[E1 E2]].
    + left. exists (S k). rewrite E1. splits; auto.
      * do 2 f_equal. lia.
      * intros [|j] d' Hj Hd'; cbn in Hd'; [congruence|]. apply (E3 j); auto. lia.
    + right. split; auto.
Qed.

Lemma modulo_match_correct index divisors : divisors <> [] -> Forall (fun d => d <> 0%Z) divisors ->
  exists k, modulo_match index divisors = Some k /\ k < length divisors /\
  ((exists d, nth_error divisors k = Some d /\ (d | index)%Z /\ forall j e, j < k -> nth_error divisors j = Some e -> ~ (e | index)%Z) \/
   (k = length divisors - 1 /\ Forall (fun d => ~ (d | index)%Z) divisors)).
Proof.
  intros HN HF. unfold modulo_match. destruct (modulo_match_loop_correct index divisors 0 HF) as [[k [E [[d [Hd Hdv]] Hmin]]]|[E HA]]; rewrite E; cbn [bind].
  - exists k. splits; auto; [eapply nth_error_lt; eauto|]. left. exists d. auto.
  - destruct divisors as [|d0 rest]; [congruence|]. exists (length (d0 :: rest) - 1). splits; auto. cbn. lia.
Qed.

(** ** strings *)
Lemma strlen_app bytes rest : Forall (fun c => c <> 0%Z) bytes -> strlen (bytes ++ 0%Z :: rest) = Some (length bytes).
Proof.
  induction 1 as [|c bytes Hc HF IH]; cbn; [reflexivity|]. destruct (Z.eqb_spec c 0); [contradiction|]. now rewrite IH.
Qed.
Lemma blit_prefix (s tail pre junk : list Z) n : length junk = length s + n ->
  forall post, blit (s ++ tail) 0 (pre ++ junk ++ post) (length pre) (length s) = Some (pre ++ s ++ skipn (length s) junk ++ post).
Proof.
  intros HJ post. unfold blit. rewrite slice_some by (rewrite app_length; lia). cbn [bind].
  rewrite skipn_O, firstn_app, firstn_all, Nat.sub_diag, firstn_O, app_nil_r. unfold splice.
  assert (B : (length pre + length s <=? length (pre ++ junk ++ post)) = true) by (apply Nat.leb_le; rewrite !app_length; lia).
  rewrite B.
  f_equal. rewrite firstn_app, firstn_all, Nat.sub_diag, firstn_O, app_nil_r. f_equal. f_equal.
  rewrite skipn_app, skipn_all2 by lia. cbn [app]. replace (length pre + length s - length pre) with (length s) by lia.
  rewrite skipn_app. f_equal. replace (length s - length junk) with 0 by lia. reflexivity.
Qed.

Section Junk.
Variable junk : nat -> list Z.
Hypothesis junk_length : forall n, length (junk n) = n.

Lemma append_correct ma a mb b : holds_string ma a -> holds_string mb b -> string_append junk ma mb = Some (a ++ b ++ [0%Z]).
Proof.
  intros [Fa [ra ->]] [Fb [rb ->]]. unfold string_append. rewrite !strlen_app by assumption. cbn [bind].
  set (J := junk (1 + length a + length b)). assert (LJ : length J = 1 + length a + length b) by apply junk_length.
  pose proof (blit_prefix a (0%Z :: ra) [] J (1 + length b) ltac:(lia) []) as B1. cbn [app length] in B1. rewrite !app_nil_r in B1. rewrite B1. cbn [bind].
  pose proof (blit_prefix (b ++ [0%Z]) rb a (skipn (length a) J) 0) as B2. rewrite app_length in B2. cbn [length] in B2.
  specialize (B2 ltac:(rewrite skipn_length; lia) []). rewrite !app_nil_r, <- app_assoc in B2. cbn [app] in B2.
  replace (1 + length b) with (length b + 1) by lia. rewrite B2. f_equal. f_equal. rewrite skipn_all2 by (rewrite skipn_length; lia). now rewrite app_nil_r.
Qed.

Lemma clone_correct ma a : holds_string ma a -> string_clone junk ma = Some (a ++ [0%Z]).
Proof.
  intros [Fa [ra ->]]. unfold string_clone. rewrite strlen_app by assumption. cbn [bind].
  set (J := junk (1 + length a)). assert (LJ : length J = 1 + length a) by apply junk_length.
  pose proof (blit_prefix (a ++ [0%Z]) ra [] J 0) as B. rewrite app_length in B. cbn [length app] in B. specialize (B ltac:(lia) []).
  rewrite !app_nil_r, <- app_assoc in B. cbn [app] in B. replace (1 + length a) with (length a + 1) by lia. rewrite B.
  f_equal. rewrite skipn_all2 by lia. now rewrite app_nil_r.
Qed.

Lemma join_size_correct mems : forall strings size, Forall2 holds_string mems strings -> join_size mems size = Some (size + length (concat strings)).
Proof.
  intros strings size HF. revert size. induction HF as [|m s mems strings [Fs [r ->]] HF IH]; intro size; cbn [join_size concat].
  - cbn. f_equal. lia.
  - rewrite strlen_app by assumption. cbn [bind]. rewrite IH, app_length. f_equal. lia.
Qed.

Lemma join_loop_correct md d rd : Forall (fun c => c <> 0%Z) d -> md = d ++ 0%Z :: rd ->
  forall mems strings, Forall2 holds_string mems strings -> forall pre J post,
  length J = length d * length strings + length (concat strings) ->
  join_loop md (length d) mems (pre ++ J ++ post) (length pre) = Some (pre ++ concat (map (fun s => d ++ s) strings) ++ post).
Proof.
  intros Fd -> mems strings HF. induction HF as [|m s mems strings [Fs [r ->]] HF IH]; intros pre J post LJ; cbn [join_loop map concat length] in *.
  - destruct J; [reflexivity|cbn in LJ; lia].
  - rewrite app_length in LJ. rewrite (blit_prefix d (0%Z :: rd) pre J (length s + length d * length strings + length (concat strings))) by lia. cbn [bind].
    rewrite strlen_app by assumption. cbn [bind].
    replace (pre ++ d ++ skipn (length d) J ++ post) with ((pre ++ d) ++ skipn (length d) J ++ post) by (now rewrite <- app_assoc).
    rewrite <- app_length.
    rewrite (blit_prefix s (0%Z :: r) (pre ++ d) (skipn (length d) J) (length d * length strings + length (concat strings))) by (rewrite skipn_length; lia).
    cbn [bind].
    replace ((pre ++ d) ++ s ++ skipn (length s) (skipn (length d) J) ++ post) with (((pre ++ d) ++ s) ++ skipn (length s) (skipn (length d) J) ++ post) by (now rewrite <- !app_assoc).
    rewrite <- app_length. rewrite IH by (rewrite !skipn_length; lia). f_equal. now rewrite <- !app_assoc.
Qed.

Lemma joined_cons d s strings : joined d (s :: strings) = s ++ concat (map (fun x => d ++ x) strings).
Proof.
  revert s. induction strings as [|t strings IH]; intro s; [cbn; now rewrite app_nil_r|].
  change (joined d (s :: t :: strings)) with (s ++ d ++ joined d (t :: strings)). rewrite IH. cbn. now rewrite <- !app_assoc.
Qed.

Lemma join_correct mems strings md d : mems <> [] -> Forall2 holds_string mems strings -> holds_string md d ->
  string_join junk mems md = Some (Some (joined d strings ++ [0%Z], length (joined d strings))).
Proof.
  intros HN HF [Fd [rd Ed]]. pose proof (join_size_correct mems strings) as HS. unfold string_join.
  destruct HF as [|m s mems strings Hs HF]; [congruence|].
  rewrite Ed at 1. rewrite strlen_app by assumption. cbn [bind].
  rewrite (HS _ (Forall2_cons _ _ Hs HF)). cbn [bind].
  destruct Hs as [Fs [r ->]]. rewrite strlen_app by assumption. cbn [bind].
  assert (LM : length mems = length strings) by (clear -HF; induction HF; cbn; auto).
  cbn [length concat]. rewrite LM, app_length. replace (S (length strings) - 1) with (length strings) by lia.
  set (size := 1 + length d * length strings + (length s + length (concat strings))).
  assert (LJ : length (junk size) = size) by apply junk_length.
  pose proof (blit_prefix s (0%Z :: r) [] (junk size) (size - length s)) as B1. cbn [app length] in B1.
  specialize (B1 ltac:(unfold size in *; lia) []). rewrite !app_nil_r in B1. rewrite B1. cbn [bind].
  set (J := skipn (length s) (junk size)). assert (LJ2 : length J = length d * length strings + length (concat strings) + 1) by (unfold J, size in *; rewrite skipn_length; lia).
  destruct (exists_last (l := J)) as [J1 [c EJ]]. { intro E. rewrite E in LJ2. cbn in LJ2. lia. }
  rewrite EJ in *. rewrite app_length in LJ2. cbn in LJ2.
  rewrite (join_loop_correct md d rd Fd Ed mems strings HF s J1 [c]) by lia. cbn [bind].
  rewrite app_assoc. rewrite <- joined_cons.
  assert (LT : length (joined d (s :: strings)) = size - 1).
  { rewrite joined_cons, app_length. unfold size. assert (HC : length (concat (map (fun x => d ++ x) strings)) = length d * length strings + length (concat strings)).
    { clear. induction strings as [|t strings IH]; cbn; [lia|]. rewrite !app_length, IH. lia. }
    lia. }
  rewrite <- LT.
  assert (AS : forall (l : list Z) x y, aset (l ++ [x]) (length l) y = Some (l ++ [y])).
  { clear. induction l; intros; cbn; [reflexivity|]. now rewrite IHl. }
  rewrite AS. reflexivity.
Qed.
End Junk.

Lemma phase_float_correct current change cycle : (0 < cycle)%Z -> (0 <= current)%Z -> (0 <= change)%Q ->
  (current + Qceiling change < two32)%Z ->
  phase_float current change cycle = Some ((current + Qceiling change) mod cycle)%Z.
Proof.
  intros H1 H0 Hc H2. unfold phase_float.
  assert (F0 : (0 <= Qfloor change)%Z) by (rewrite <- (Qfloor_Z 0); now apply Qfloor_resp_le).
  assert (FC : (Qfloor change <= Qceiling change)%Z).
  { rewrite Zle_Qle. apply Qle_trans with change; [apply Qfloor_le|apply Qle_ceiling]. }
  assert (E : cheap_ceiling change = Some (Qceiling change)).
  { unfold cheap_ceiling, time_of. rewrite (proj2 (Qle_bool_iff _ _) Hc).
    assert (B : (Qfloor change <? two32)%Z = true) by lia. rewrite B. cbn [bind]. destruct (Qle_bool change (inject_Z (Qfloor change))) eqn:EQ.
    - apply Qle_bool_iff in EQ. rewrite Z.add_0_r, u32_small by lia. f_equal.
      pose proof (Qceiling_resp_le _ _ EQ) as C. rewrite Qceiling_Z in C. lia.
    - assert (N : ~ (change <= inject_Z (Qfloor change))%Q) by (rewrite <- Qle_bool_iff; congruence). apply Qnot_le_lt in N.
      assert (C1 : (Qceiling change <= Qfloor change + 1)%Z).
      { rewrite <- (Qceiling_Z (Qfloor change + 1)). apply Qceiling_resp_le. apply Qlt_le_weak, Qlt_floor. }
      assert (C2 : (Qfloor change < Qceiling change)%Z).
      { rewrite Zlt_Qlt. apply Qlt_le_trans with change; [exact N|apply Qle_ceiling]. }
      rewrite u32_small by lia. f_equal. lia. }
  rewrite E. cbn [bind]. apply phase_correct; lia.
Qed.

Lemma factorial_small n : (factorial n < two32)%Z -> n <= 12.
Proof.
  intros H; destruct (Nat.le_gt_cases n 12) as [|Hn]; auto. exfalso.
  assert (Hp : forall m, (0 < factorial m)%Z) by (induction m as [|m IH]; [reflexivity|cbn [factorial]; apply Z.mul_pos_pos; lia]).
  assert (Hm : forall d, (factorial 13 <= factorial (d + 13))%Z).
  { induction d as [|d IH]; [apply Z.le_refl|]. cbn [Nat.add]. change (factorial (S (d + 13))) with (Z.of_nat (S (d + 13)) * factorial (d + 13))%Z. specialize (Hp (d + 13)). nia. }
  specialize (Hm (n - 13)). replace (n - 13 + 13) with n in Hm by lia. assert (Hx : (two32 < factorial 13)%Z) by reflexivity. lia.
Qed.
Lemma permutations_max_formula n k : k < n -> (Z.of_nat n < two32)%Z ->
  permutations_max (Z.of_nat n) (Z.of_nat k) = Some ((factorial n mod two32) / Z.of_nat (n - k))%Z /\
  ((factorial n < two32)%Z -> (permutations_max (Z.of_nat n) (Z.of_nat k) = Some (factorial n / factorial (n - k))%Z <-> n - k <= 2)).
Proof.
  intros Hk Hn.
  assert (E : permutations_max (Z.of_nat n) (Z.of_nat k) = Some ((factorial n mod two32) / Z.of_nat (n - k))%Z).
  { unfold permutations_max. rewrite <- Nat2Z.inj_sub by lia. unfold u32. rewrite Z.mod_small by lia. destruct (Z.eqb_spec (Z.of_nat (n - k)) 0); [lia|]. rewrite Nat2Z.id, factorial_correct. reflexivity. }
  split; [exact E|]. rewrite E. intros H. pose proof (factorial_small n H) as Hs. clear E Hn.
  assert (Hd : exists d, k + d = n /\ 1 <= d <= 12) by (exists (n - k); lia). destruct Hd as (d & <- & Hd). replace (k + d - k) with d by lia. clear Hk.
  rewrite Z.mod_small by (split; [|exact H]; clear; induction (k + d) as [|m IH]; [discriminate|cbn [factorial]; lia]). clear H.
  do 13 (destruct d as [|d]; [do 13 (destruct k as [|k]; [try (exfalso; lia); vm_compute; split; intros X; try discriminate X; try reflexivity; repeat constructor; exfalso; revert X; clear; lia|]); exfalso; lia|]). exfalso; lia.
Qed.
