(** Lemmas for C88: the values next to the multiples move least *)
From Verif Require Import Base MiscModel MiscProofs HarModel HarProofs.
From Coq Require Import QArith Qround Qminmax Lqa.
Open Scope nat_scope.

Lemma above_multiple (k m : Z) (d : Z) : (0 < m)%Z -> (1 <= d <= m)%Z -> ((k * m + d + m - 1) / m * m = (k + 1) * m)%Z.
Proof.
  intros hm hd. replace (k * m + d + m - 1)%Z with ((d - 1) + (k + 1) * m)%Z by ring.
  rewrite Z.div_add by lia. rewrite Z.div_small by lia. ring.
Qed.

Lemma deharmonize_next_to {St : Type} (bounded : Z -> St -> option (Z * St)) (random : St -> Z * St) (k base : Z) (amount : Q) st :
  (forall range st, (0 < range)%Z -> exists r st', bounded range st = Some (r, st') /\ (0 <= r < range)%Z) ->
  (0 <= k)%Z -> (2 <= base)%Z -> (k * base + 1 + base < two32)%Z -> (0 <= amount <= 1)%Q ->
  exists z st', deharmonize bounded random (k * base + 1) base amount st = Some (z, st') /\ (Z.abs (z - (k * base + 1)) <= 1)%Z.
Proof.
  intros hb hk h2 hw ha.
  destruct (deharmonize_correct bounded random (k * base + 1) base amount st hb ltac:(nia) h2 hw ha) as (z & st' & e & _ & b & _).
  exists z, st'. split; [exact e|]. unfold next_multiple in b. rewrite (above_multiple k base 1) in b by lia.
  replace (base - ((k + 1) * base - (k * base + 1)))%Z with 1%Z in b by ring.
  assert (pb : (0 < inject_Z base)%Q) by (change 0%Q with (inject_Z 0); rewrite <- Zlt_Qlt; lia).
  assert (hh : (inject_Z (base / 2) <= inject_Z base)%Q) by (rewrite <- Zle_Qle; apply Z.div_le_upper_bound; lia).
  assert (h0 : (0 <= inject_Z (base / 2))%Q) by (change 0%Q with (inject_Z 0); rewrite <- Zle_Qle; apply Z.div_pos; lia).
  assert (q : (0 <= inject_Z 1 / inject_Z base * inject_Z (base / 2) <= 1)%Q).
  { setoid_replace (inject_Z 1 / inject_Z base * inject_Z (base / 2))%Q with (inject_Z (base / 2) / inject_Z base)%Q by (change (inject_Z 1) with 1%Q; field; lra).
    split; [apply Qle_shift_div_l; lra|apply Qle_shift_div_r; lra]. }
  assert (q2 : (amount * (inject_Z 1 / inject_Z base * inject_Z (base / 2)) <= 1)%Q).
  { apply Qle_trans with (1 * (inject_Z 1 / inject_Z base * inject_Z (base / 2)))%Q; [apply Qmult_le_compat_r; lra|lra]. }
  assert (f : (inject_Z (Z.abs (z - (k * base + 1))) < inject_Z 2)%Q).
  { rewrite <- Qmult_assoc in b. change (inject_Z 2) with 2%Q. lra. }
  rewrite <- Zlt_Qlt in f. lia.
Qed.

Lemma deharmonize_middle {St : Type} (bounded : Z -> St -> option (Z * St)) (random : St -> Z * St) (k m : Z) st st' :
  bounded m st = Some (m - 1, st')%Z -> (0 <= k)%Z -> (1 <= m)%Z -> (k * (2 * m) + m + 2 * m < two32)%Z ->
  exists z, deharmonize bounded random (k * (2 * m) + m) (2 * m) 1 st = Some (z, st') /\ (m <= 2 * Z.abs (z - (k * (2 * m) + m)))%Z.
Proof.
  intros hb hk hm hw. set (a := (k * (2 * m) + m)%Z) in *. assert (a0 : (m <= a)%Z) by (unfold a; nia).
  unfold deharmonize. replace (negb (2 * m =? 0)%Z) with true by lia. cbn [need bind].
  rewrite (u32_small (a + 2 * m)) by lia. rewrite (u32_small (a + 2 * m - 1)) by lia.
  replace ((a + 2 * m - 1) / (2 * m) * (2 * m))%Z with (a + m)%Z.
  2:{ unfold a. rewrite above_multiple by lia. ring. }
  rewrite (u32_small (a + m)) by lia. unfold absolute_difference. replace (a + m <? a)%Z with false by lia.
  rewrite (u32_small (a + m - a)) by lia. rewrite (u32_small (2 * m - (a + m - a))) by lia.
  replace (2 * m - (a + m - a))%Z with m by lia. replace (2 * m / 2)%Z with m by (rewrite Z.mul_comm, Z.div_mul; lia).
  rewrite hb. cbn [bind]. rewrite (u32_small (1 + (m - 1))) by lia. replace (1 + (m - 1))%Z with m by lia.
  assert (pm : (1 <= inject_Z m)%Q) by (change 1%Q with (inject_Z 1); rewrite <- Zle_Qle; lia).
  assert (ex : (1 * (inject_Z m / inject_Z (2 * m)) * inject_Z m == inject_Z m / 2)%Q).
  { rewrite inject_Z_mult. change (inject_Z 2) with 2%Q. field. lra. }
  set (x := (1 * (inject_Z m / inject_Z (2 * m)) * inject_Z m)%Q) in *.
  assert (xm : (2 * x == inject_Z m)%Q) by (rewrite ex; field).
  assert (am : (inject_Z m <= inject_Z a)%Q) by (rewrite <- Zle_Qle; exact a0).
  unfold Qlt_bool. replace (Qle_bool x (inject_Z a)) with true by (symmetry; apply Qle_bool_iff; lra). cbn [negb orb].
  replace (a <? a + m)%Z with true by lia.
  destruct (time_of_between 0 a (inject_Z a - x)%Q) as (z & e & b & f); [lia|lia| |].
  { change (inject_Z 0) with 0%Q. lra. }
  rewrite e. cbn [bind]. exists z. split; [reflexivity|].
  pose proof (Qfloor_le (inject_Z a - x)) as g. rewrite <- f in g.
  assert (g2 : (inject_Z (m + 2 * z) <= inject_Z (2 * a))%Q).
  { rewrite inject_Z_plus, !inject_Z_mult. change (inject_Z 2) with 2%Q. lra. }
  rewrite <- Zle_Qle in g2. lia.
Qed.
