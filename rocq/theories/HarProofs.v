From Verif Require Import Base MiscModel MiscProofs HarModel.
From Coq Require Import QArith Qround Qminmax Lqa.
Open Scope nat_scope.

Lemma floor_up a x : (0 <= x)%Q -> (a <= Qfloor (inject_Z a + x))%Z /\ (inject_Z (Qfloor (inject_Z a + x) - a) <= x)%Q.
Proof.
  intro H. split.
  - rewrite <- (Qfloor_Z a) at 1. apply Qfloor_resp_le. lra.
  - pose proof (Qfloor_le (inject_Z a + x)). unfold Zminus. rewrite inject_Z_plus, inject_Z_opp. lra.
Qed.
Lemma floor_down a x : (0 <= x)%Q -> (Qfloor (inject_Z a - x) <= a)%Z /\ (inject_Z (a - Qfloor (inject_Z a - x)) < x + 1)%Q.
Proof.
  intro H. split.
  - rewrite <- (Qfloor_Z a) at 2. apply Qfloor_resp_le. lra.
  - pose proof (Qlt_floor (inject_Z a - x)). rewrite inject_Z_plus in H0. unfold Zminus. rewrite inject_Z_plus, inject_Z_opp. change (inject_Z 1) with 1%Q in H0. lra.
Qed.

Lemma deharmonize_correct {St : Type} (bounded : Z -> St -> option (Z * St)) (random : St -> Z * St) a base amount st :
  (forall range st, (0 < range)%Z -> exists r st', bounded range st = Some (r, st') /\ (0 <= r < range)%Z) ->
  (0 <= a)%Z -> (2 <= base)%Z -> (a + base < two32)%Z -> (0 <= amount <= 1)%Q ->
  exists z st', deharmonize bounded random a base amount st = Some (z, st') /\
  (Z.abs (z - a) <= base / 2)%Z /\
  (inject_Z (Z.abs (z - a)) < amount * (inject_Z (base - (next_multiple a base - a)) / inject_Z base) * inject_Z (base / 2) + 1)%Q /\
  ((amount == 0)%Q -> z = a) /\
  ((a < next_multiple a base)%Z -> (base / 2 <= a)%Z -> (z <= a)%Z).
Proof.
  intros HB Ha Hb Hab Hm. destruct (next_multiple_spec a base Ha ltac:(lia)) as [HN _]. unfold deharmonize.
  replace (negb (base =? 0)%Z) with true by lia. cbn [need bind].
  rewrite (u32_small (a + base)) by lia. rewrite (u32_small (a + base - 1)) by lia.
  fold (next_multiple a base). rewrite (u32_small (next_multiple a base)) by lia.
  unfold absolute_difference. replace (next_multiple a base <? a)%Z with false by lia. rewrite (u32_small (next_multiple a base - a)) by lia.
  set (d := (next_multiple a base - a)%Z) in *. rewrite (u32_small (base - d)) by lia.
  assert (B2 : (0 < base / 2)%Z) by (apply Z.div_str_pos; lia).
  assert (B3 : (base / 2 <= base)%Z) by (apply Z.div_le_upper_bound; lia).
  destruct (HB (base / 2)%Z st B2) as (r & st' & -> & Hr). cbn [bind]. rewrite (u32_small (1 + r)) by lia.
  set (k := (inject_Z (base - d) / inject_Z base)%Q).
  assert (PB : (0 < inject_Z base)%Q) by (change 0%Q with (inject_Z 0); rewrite <- Zlt_Qlt; lia).
  assert (K0 : (0 <= k)%Q). { unfold k. apply Qle_shift_div_l; auto. change 0%Q with (inject_Z 0). rewrite <- inject_Z_mult, <- Zle_Qle. unfold d; lia. }
  assert (K1 : (k <= 1)%Q). { unfold k. apply Qle_shift_div_r; auto. setoid_replace (1 * inject_Z base)%Q with (inject_Z base) by ring. rewrite <- Zle_Qle. unfold d; lia. }
  assert (AK : (0 <= amount * k <= 1)%Q).
  { split; [apply Qmult_le_0_compat; lra|]. apply Qle_trans with (1 * k)%Q; [apply Qmult_le_compat_r; lra|lra]. }
  assert (R1 : (1 <= inject_Z (1 + r))%Q) by (change 1%Q with (inject_Z 1); rewrite <- Zle_Qle; lia).
  assert (R2 : (inject_Z (1 + r) <= inject_Z (base / 2))%Q) by (rewrite <- Zle_Qle; lia).
  set (x := (amount * k * inject_Z (1 + r))%Q).
  assert (X0 : (0 <= x)%Q) by (unfold x; apply Qmult_le_0_compat; lra).
  assert (X1 : (x <= amount * k * inject_Z (base / 2))%Q).
  { unfold x. rewrite (Qmult_comm (amount * k)), (Qmult_comm (amount * k)). apply Qmult_le_compat_r; lra. }
  assert (X2 : (x <= inject_Z (base / 2))%Q).
  { apply Qle_trans with (1 := X1). apply Qle_trans with (1 * inject_Z (base / 2))%Q; [apply Qmult_le_compat_r; lra|lra]. }
  assert (X3 : (amount == 0)%Q -> (x == 0)%Q) by (intro E; unfold x; rewrite E; ring).
  assert (UP : exists z, time_of (inject_Z a + x)%Q = Some z /\ (a <= z <= a + base / 2)%Z /\ (inject_Z (z - a) <= x)%Q /\ ((amount == 0)%Q -> z = a)).
  { destruct (time_of_between a (a + base / 2) (inject_Z a + x)%Q) as (z & E & B & F); try lia.
    { rewrite inject_Z_plus. split; lra. }
    exists z. splits; auto; try lia. { rewrite F. apply floor_up; auto. }
    intro A0. rewrite F. rewrite <- (Qfloor_Z a) at 2. apply Qfloor_comp. rewrite (X3 A0). ring. }
  assert (DN : (x <= inject_Z a)%Q -> exists z, time_of (inject_Z a - x)%Q = Some z /\ (a - base / 2 <= z <= a)%Z /\ (inject_Z (a - z) < x + 1)%Q /\ ((amount == 0)%Q -> z = a)).
  { intro XA. destruct (time_of_between 0 a (inject_Z a - x)%Q) as (z & E & B & F); try lia.
    { change (inject_Z 0) with 0%Q. split; lra. }
    exists z. destruct (floor_down a x X0) as [D1 D2]. rewrite <- F in *. splits; auto; try lia.
    - assert (L : (inject_Z (a - base / 2) <= inject_Z a - x)%Q) by (unfold Zminus; rewrite inject_Z_plus, inject_Z_opp; lra).
      rewrite F. rewrite <- (Qfloor_Z (a - base / 2)). now apply Qfloor_resp_le.
    - intro A0. rewrite F. rewrite <- (Qfloor_Z a) at 2. apply Qfloor_comp. rewrite (X3 A0). ring. }
  assert (FIN : forall z, (Z.abs (z - a) <= base / 2)%Z -> (inject_Z (Z.abs (z - a)) < x + 1)%Q ->
            (inject_Z (Z.abs (z - a)) < amount * k * inject_Z (base / 2) + 1)%Q) by (intros; lra).
  cbn [orb].
  assert (UPQ : forall z, (a <= z <= a + base / 2)%Z -> (inject_Z (z - a) <= x)%Q -> (Z.abs (z - a) <= base / 2)%Z /\ (inject_Z (Z.abs (z - a)) < amount * k * inject_Z (base / 2) + 1)%Q).
  { intros z B L. rewrite Z.abs_eq by lia. split; [lia|]. lra. }
  assert (DNQ : forall z, (a - base / 2 <= z <= a)%Z -> (inject_Z (a - z) < x + 1)%Q -> (Z.abs (z - a) <= base / 2)%Z /\ (inject_Z (Z.abs (z - a)) < amount * k * inject_Z (base / 2) + 1)%Q).
  { intros z B L. rewrite Z.abs_neq by lia. replace (- (z - a))%Z with (a - z)%Z by lia. split; [lia|]. lra. }
  unfold Qlt_bool. destruct (Qle_bool x (inject_Z a)) eqn:EX; cbn [negb].
  - apply Qle_bool_iff in EX. destruct (DN EX) as (zd & Ed & Bd & Ld & Zd). destruct UP as (zu & Eu & Bu & Lu & Zu).
    destruct (Z.ltb_spec a (next_multiple a base)).
    + rewrite Ed. cbn [bind]. exists zd, st'. destruct (DNQ zd Bd Ld). splits; auto. intros; lia.
    + destruct (random st') as [b st2]. destruct (Z.odd b).
      * rewrite Ed. cbn [bind]. exists zd, st2. destruct (DNQ zd Bd Ld). splits; auto. intros; lia.
      * rewrite Eu. cbn [bind]. exists zu, st2. destruct (UPQ zu Bu Lu). splits; auto. intros; lia.
  - destruct UP as (zu & Eu & Bu & Lu & Zu). rewrite Eu. cbn [bind]. exists zu, st'. destruct (UPQ zu Bu Lu). splits; auto.
    intros _ BA. exfalso. assert (E : Qle_bool x (inject_Z a) = true); [|congruence].
    apply Qle_bool_iff. apply Qle_trans with (1 := X2). rewrite <- Zle_Qle. lia.
Qed.
