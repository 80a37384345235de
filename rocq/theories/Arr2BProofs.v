From Verif Require Import Base MiscModel MiscSpec CombModel CombSpec ScaleSpec Arr2Model CombProofs ScaleProofs.
From Coq Require Import QArith Lqa ZifyBool ZifyNat Lia.
Open Scope nat_scope.

Lemma inject_nonneg z : (0 <= z)%Z -> (0 <= inject_Z z)%Q.
Proof. intro H. change 0%Q with (inject_Z 0). rewrite <- Zle_Qle. exact H. Qed.

Lemma portion_le (range : Q) d k : (0 <= range)%Q -> d <= k -> 0 < k ->
  (0 <= range * (inject_Z (Z.of_nat d) / inject_Z (Z.of_nat k)) <= range)%Q.
Proof.
  intros HR Hd Hk. assert (K : (0 < inject_Z (Z.of_nat k))%Q) by (change 0%Q with (inject_Z 0); rewrite <- Zlt_Qlt; lia).
  assert (D : (0 <= inject_Z (Z.of_nat d))%Q) by (apply inject_nonneg; lia).
  assert (DK : (inject_Z (Z.of_nat d) <= inject_Z (Z.of_nat k))%Q) by (rewrite <- Zle_Qle; lia).
  assert (F0 : (0 <= inject_Z (Z.of_nat d) / inject_Z (Z.of_nat k))%Q) by (apply Qle_shift_div_l; [exact K|lra]).
  assert (F1 : (inject_Z (Z.of_nat d) / inject_Z (Z.of_nat k) <= 1)%Q) by (apply Qle_shift_div_r; [exact K|lra]).
  split; nra.
Qed.

Lemma portion_lt (range : Q) d k : (0 < range)%Q -> d < k ->
  (0 <= range * (inject_Z (Z.of_nat d) / inject_Z (Z.of_nat k)) < range)%Q.
Proof.
  intros HR Hd. assert (K : (0 < inject_Z (Z.of_nat k))%Q) by (change 0%Q with (inject_Z 0); rewrite <- Zlt_Qlt; lia).
  assert (D : (0 <= inject_Z (Z.of_nat d))%Q) by (apply inject_nonneg; lia).
  assert (DK : (inject_Z (Z.of_nat d) < inject_Z (Z.of_nat k))%Q) by (rewrite <- Zlt_Qlt; lia).
  assert (F0 : (0 <= inject_Z (Z.of_nat d) / inject_Z (Z.of_nat k))%Q) by (apply Qle_shift_div_l; [exact K|lra]).
  assert (F1 : (inject_Z (Z.of_nat d) / inject_Z (Z.of_nat k) < 1)%Q) by (apply Qlt_shift_div_r; [exact K|lra]).
  split; nra.
Qed.

Lemma rounded_bound x z hi : (0 <= x <= inject_Z hi)%Q -> rounded x z -> (0 <= z <= hi)%Z.
Proof.
  intros [H0 H1] [A B]. assert (C : (inject_Z z < inject_Z (hi + 1))%Q) by (rewrite inject_Z_plus; change (inject_Z 1) with 1%Q; lra).
  rewrite <- Zlt_Qlt in C. assert (D : (inject_Z (-1) < inject_Z z)%Q) by (change (inject_Z (-1)) with (-1 # 1)%Q; lra).
  rewrite <- Zlt_Qlt in D. lia.
Qed.

Lemma cumulative_len dist : length (cumulative dist) = length dist.
Proof. unfold cumulative. now rewrite map_length, seq_length. Qed.

Lemma time_bounded_correct {St} (random : St -> Z -> option (Z * St)) dist range st :
  bounded random -> Forall (fun x => 0 <= x)%Z dist -> (0 < zsum dist)%Z -> 2 <= length dist -> (0 <= range < two32)%Z ->
  exists v st' i p, time_random_discrete_bounded St random (cumulative dist) range st = Some (v, st') /\
  nth_error dist i = Some p /\ (0 < p)%Z /\ (0 <= v <= range)%Z /\
  rounded (inject_Z range * (inject_Z (Z.of_nat i) / inject_Z (Z.of_nat (length dist - 1)))) v.
Proof.
  intros HB HF HS HL HR. destruct (random_discrete_correct random dist st HB HF HS) as [i [st' [p [d [E [Hp [P [_ _]]]]]]]].
  unfold time_random_discrete_bounded. rewrite E. cbn [bind]. rewrite cumulative_len.
  replace (length dist =? 1) with false by lia. cbn [negb need bind].
  assert (I : i < length dist) by (apply nth_error_lt in Hp; exact Hp).
  pose proof (portion_le (inject_Z range) i (length dist - 1)) as Q. 
  assert (Q' : (0 <= inject_Z range * (inject_Z (Z.of_nat i) / inject_Z (Z.of_nat (length dist - 1))) <= inject_Z range)%Q)
    by (apply Q; [apply inject_nonneg; lia|lia|lia]).
  destruct (cheap_round_rounded (inject_Z range * (inject_Z (Z.of_nat i) / inject_Z (Z.of_nat (length dist - 1))))) as [v [Ev Rv]].
  - apply Q'.
  - assert (B : (inject_Z range <= inject_Z (two32 - 1))%Q) by (rewrite <- Zle_Qle; lia). unfold Z.sub in B. rewrite inject_Z_plus in B.
    change (inject_Z (- (1))) with (-1 # 1)%Q in B. lra.
  - exists v, st', i, p. rewrite Ev. cbn [bind]. split; [reflexivity|]. split; [exact Hp|]. split; [exact P|]. split; [|exact Rv]. exact (rounded_bound _ _ _ Q' Rv).
Qed.

Lemma time_bounded_one {St} (random : St -> Z -> option (Z * St)) c range st :
  time_random_discrete_bounded St random [c] range st = None.
Proof. unfold time_random_discrete_bounded. destruct (random_discrete random [c] st) as [[d s]|]; reflexivity. Qed.

Lemma sample_bounded_correct {St} (random : St -> Z -> option (Z * St)) dist range st :
  bounded random -> Forall (fun x => 0 <= x)%Z dist -> (0 < zsum dist)%Z -> (0 < range)%Q ->
  exists v st' i p, sample_random_discrete_bounded St random (cumulative dist) range st = Some (v, st') /\
  nth_error dist i = Some p /\ (0 < p)%Z /\ (0 <= v < range)%Q /\
  (v == range * inject_Z (Z.of_nat i) / inject_Z (Z.of_nat (length dist)))%Q.
Proof.
  intros HB HF HS HR. destruct (random_discrete_correct random dist st HB HF HS) as [i [st' [p [d [E [Hp [P [_ _]]]]]]]].
  unfold sample_random_discrete_bounded. rewrite E. cbn [bind]. rewrite cumulative_len.
  assert (I : i < length dist) by (apply nth_error_lt in Hp; exact Hp).
  do 4 eexists. split; [reflexivity|]. split; [exact Hp|]. split; [exact P|]. split; [now apply portion_lt|].
  unfold Qdiv. ring.
Qed.
