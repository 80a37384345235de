From Verif Require Import Base MiscModel ArrModel ScaleModel ScaleSpec ScaleProofs Scale2Proofs.
From Coq Require Import QArith Qround Qabs Qpower Lqa.
Open Scope nat_scope.

(** ** conversions to units, divisions and gain of a reference *)
Lemma to_units_correct l n : n <= length l -> samples_to_units l n = Some (map (fun x => (x + 1) / 2)%Q (firstn n l) ++ skipn n l).
Proof. exact (inplace_map (fun x => (x + 1) / 2)%Q n l). Qed.
Lemma divisions_correct start divisor n out : ~ (divisor == 0)%Q -> n <= length out ->
  exists out', samples_divisions start divisor n out = Some (out' ++ skipn n out) /\ length out' = n /\
  forall i, i < n -> exists v, nth_error out' i = Some v /\ (v * divisor ^ Z.of_nat i == start)%Q.
Proof.
  intros HD HO. unfold samples_divisions.
  match goal with |- context [for_ 0 n ?body _] => destruct (for_inv (fun k '(o, s) => (s * divisor ^ Z.of_nat k == start)%Q /\ length o = length out /\
     forall j, if j <? k then exists v, nth_error o j = Some v /\ (v * divisor ^ Z.of_nat j == start)%Q else nth_error o j = nth_error out j) body 0 n (out, start)) as [[o s] [E [S [L G]]]] end.
  - lia.
  - split; [cbn; ring|]. split; [reflexivity|]. intro j. reflexivity.
  - intros k [o s] Hk [S [L G]]. destruct (aset_some o k s) as [o' Eo]; [lia|]. rewrite Eo. cbn [bind]. eexists (_, _). split; [reflexivity|]. splits.
    + rewrite Nat2Z.inj_succ. unfold Z.succ. rewrite Qpower_plus by exact HD. change (divisor ^ 1)%Q with divisor. rewrite <- S. field. exact HD.
    + rewrite (aset_length _ _ _ _ Eo). exact L.
    + intro j. specialize (G j). rewrite (aset_get _ _ _ _ j Eo). destruct (Nat.eqb_spec j k) as [->|N].
      * replace (k <? Datatypes.S k) with true by lia. eauto.
      * replace (j <? Datatypes.S k) with (j <? k) by lia. exact G.
  - rewrite E. cbn [bind]. exists (firstn n o). splits.
    + f_equal. rewrite <- (firstn_skipn n o) at 1. f_equal. apply nth_error_ext. intro j. rewrite !nth_error_skipn. specialize (G (n + j)). replace (n + j <? n) with false in G by lia. exact G.
    + rewrite firstn_length. lia.
    + intros i Hi. specialize (G i). replace (i <? n) with true in G by lia. rewrite nth_error_firstn by lia. exact G.
Qed.
Lemma unity_gain_correct l r n : n <= length l -> n <= length r -> Forall (fun x => Qabs x < inject_Z two32)%Q (firstn n l) -> Forall (fun x => Qabs x < inject_Z two32)%Q (firstn n r) ->
  (0 < zmax (map (fun x => Qfloor (Qabs x)) (firstn n l)))%Z -> (0 < zmax (map (fun x => Qfloor (Qabs x)) (firstn n r)))%Z ->
  exists factor, samples_set_unity_gain l r n = Some (map (fun x => x * factor)%Q (firstn n l) ++ skipn n l) /\
  (factor * inject_Z (zmax (map (fun x => Qfloor (Qabs x)) (firstn n l))) == inject_Z (zmax (map (fun x => Qfloor (Qabs x)) (firstn n r))))%Q.
Proof.
  intros H HR F FR M MR. unfold samples_set_unity_gain. rewrite samples_absolute_max_correct by auto. cbn [bind]. apply set_gain_correct; auto.
  intro E. change 0%Q with (inject_Z 0) in E. rewrite inject_Z_injective in E. lia.
Qed.
Lemma unity_gain_unchanged l r n : n <= length l -> n <= length r -> Forall (fun x => Qabs x < inject_Z two32)%Q (firstn n l) -> Forall (fun x => Qabs x < inject_Z two32)%Q (firstn n r) ->
  zmax (map (fun x => Qfloor (Qabs x)) (firstn n l)) = 0%Z \/ zmax (map (fun x => Qfloor (Qabs x)) (firstn n r)) = 0%Z -> samples_set_unity_gain l r n = Some l.
Proof.
  intros H HR F FR M. unfold samples_set_unity_gain. rewrite samples_absolute_max_correct by auto. cbn [bind]. apply set_gain_unchanged; auto.
  destruct M as [M|M]; [right; exact M|left; rewrite M; reflexivity].
Qed.
