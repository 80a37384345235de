(** Where scaling fails, for all inputs *)
From Verif Require Import Base MiscModel MiscSpec ArrModel ArrSpec ScaleModel ScaleSpec ScaleProofs Scale2Proofs.
From Coq Require Import QArith Qround Qminmax Qabs Lqa.
Open Scope nat_scope.

Lemma scale_y_not_multiple l n target : n <= length l -> Forall word (firstn n l) -> word target -> (0 < zmax (firstn n l))%Z -> ~ (zmax (firstn n l) | target)%Z ->
  exists l', times_scale_y l n target = Some (l' ++ skipn n l) /\ length l' = n /\ (zmax l' < target)%Z.
Proof.
  intros h f ht hm nd. unfold times_scale_y. rewrite times_absolute_max_correct by exact h. cbn [bind]. set (m := zmax (firstn n l)) in *. rewrite (proj2 (Z.eqb_neq m 0)) by lia. rewrite multiply_front by exact h.
  set (k := (target / m)%Z). unfold word in ht. pose proof (Z.div_mod target m ltac:(lia)) as dm. pose proof (Z.mod_pos_bound target m hm) as mb. assert (k0 : (0 <= k)%Z) by (apply Z.div_pos; lia). fold k in dm.
  assert (ml : (m * k < target)%Z). { destruct (Z.eq_dec (target mod m) 0) as [z|z]; [|lia]. exfalso. apply nd. exists k. lia. }
  assert (e : map (fun x => t_mul x k) (firstn n l) = map (fun x => x * k)%Z (firstn n l)).
  { apply map_ext_in. intros x hx. unfold t_mul. apply u32_small. assert (x1 : (x <= m)%Z) by (now apply zmax_in). eapply Forall_forall in f; [|exact hx]. unfold word in f. nia. }
  rewrite e. eexists. split; [reflexivity|]. split; [rewrite map_length, firstn_length; lia|]. rewrite zmax_scale by exact k0. exact ml.
Qed.
Lemma rounded_unique q y z : rounded q y -> rounded q z -> y = z.
Proof.
  unfold rounded. intros [a b] [c d]. assert (x1 : (inject_Z y < inject_Z z + 1)%Q) by lra. assert (x2 : (inject_Z z < inject_Z y + 1)%Q) by lra. change 1%Q with (inject_Z 1) in x1, x2. rewrite <- inject_Z_plus, <- Zlt_Qlt in x1, x2. lia.
Qed.
Lemma zsum_repeat c n : zsum (repeat c n) = (Z.of_nat n * c)%Z.
Proof. induction n; [reflexivity|]. cbn [repeat zsum fold_right]. fold (zsum (repeat c n)). rewrite IHn. lia. Qed.
Lemma scale_sum_equal c n sum rest : 0 < n -> (0 < c)%Z -> (Z.of_nat n * c < two32)%Z -> word sum -> ~ (Z.of_nat n | sum)%Z ->
  exists l', times_scale_sum (repeat c n ++ rest) n sum (repeat c n ++ rest) = Some (l' ++ rest) /\ length l' = n /\ zsum l' <> sum.
Proof.
  intros n0 hc hw hs nd. assert (ef : firstn n (repeat c n ++ rest) = repeat c n) by (rewrite firstn_app, repeat_length, Nat.sub_diag, firstn_O, app_nil_r; apply firstn_all2; rewrite repeat_length; lia).
  assert (es : skipn n (repeat c n ++ rest) = rest) by (rewrite skipn_app, repeat_length, Nat.sub_diag, skipn_all2 by (rewrite repeat_length; lia); reflexivity).
  destruct (scale_sum_error (repeat c n ++ rest) n sum) as (l' & e & hl & r & _).
  - rewrite app_length, repeat_length. lia.
  - rewrite ef. apply Forall_forall. intros x hx. apply repeat_spec in hx. subst. unfold word. nia.
  - exact hs.
  - rewrite ef, zsum_repeat. nia.
  - rewrite es in e. rewrite ef in r. exists l'. split; [exact e|]. split; [exact hl|]. intros z. apply nd.
    destruct l' as [|y l']; [cbn in hl; lia|]. set (q := (inject_Z c * inject_Z sum / inject_Z (zsum (repeat c n)))%Q) in *.
    assert (a : Forall (fun x => rounded q x) (y :: l')).
    { apply Forall_forall. intros x hx. destruct (In_nth_error _ _ hx) as [i hi]. assert (li : i < n) by (rewrite <- hl; apply nth_error_Some; congruence).
      assert (G : forall (u v : list Z), Forall2 (fun x y => rounded (inject_Z x * inject_Z sum / inject_Z (zsum (repeat c n))) y) u v -> forall i x y, nth_error u i = Some x -> nth_error v i = Some y -> rounded (inject_Z x * inject_Z sum / inject_Z (zsum (repeat c n))) y).
      { induction 1; intros [|j] a b ha hb; cbn in ha, hb; try discriminate; [congruence|eauto]. }
      apply (G _ _ r i c x); [apply nth_error_repeat; exact li|exact hi]. }
    assert (b : y :: l' = repeat y n). { rewrite <- hl. apply Forall_eq_repeat. apply Forall_forall. intros x hx. rewrite Forall_forall in a. apply (rounded_unique q); apply a; [left; reflexivity|exact hx]. }
    rewrite b, zsum_repeat in z. exists y. lia.
Qed.
Lemma scale_sum_silent l n sum out : n <= length l -> n <= length out -> (0 < zsum (firstn n l) < two32)%Z -> Forall (fun x => x = 0%Z) (firstn n out) -> sum <> 0%Z ->
  times_scale_sum l n sum out = Some out /\ zsum (firstn n out) <> sum.
Proof.
  intros h ho hz f hs. unfold times_scale_sum. rewrite sum_times_correct by exact h. cbn [bind]. rewrite u32_small by lia. rewrite (proj2 (Z.eqb_neq _ _)) by lia. split.
  - rewrite (inplace_map_opt (fun x => cheap_round (inject_Z x * (inject_Z sum / inject_Z (zsum (firstn n l))))%Q) n out (firstn n out) ho).
    + rewrite firstn_skipn. reflexivity.
    + induction f as [|x t -> _ IH]; constructor; [|exact IH]. rewrite (cheap_round_ext _ (inject_Z 0)) by (change (inject_Z 0) with 0%Q; ring). apply cheap_round_int. split; reflexivity || discriminate.
  - assert (z : zsum (firstn n out) = 0%Z). { induction f as [|x t -> _ IH]; [reflexivity|]. cbn [zsum fold_right]. fold (zsum t). lia. } lia.
Qed.
Lemma gain_below_one l n amp : n <= length l -> Forall (fun x => Qabs x < 1)%Q (firstn n l) -> (1 <= amp)%Q -> samples_set_gain l n amp = Some l /\ Forall (fun x => Qabs x < amp)%Q (firstn n l).
Proof.
  intros h f ha. split; [|eapply Forall_impl; [|exact f]; cbn; intros; lra]. apply set_gain_unchanged; [exact h| |].
  - eapply Forall_impl; [|exact f]. cbn. intros x hx. assert (1 <= inject_Z two32)%Q by discriminate. lra.
  - right. induction f as [|x t hx _ IH]; [reflexivity|]. cbn [map zmax fold_right]. fold (zmax (map (fun x => Qfloor (Qabs x)) t)). rewrite IH.
    assert (e : Qfloor (Qabs x) = 0%Z). { pose proof (Qfloor_le (Qabs x)) as l1. pose proof (Qlt_floor (Qabs x)) as l2. pose proof (Qabs_nonneg x) as q0. rewrite inject_Z_plus in l2. change (inject_Z 1) with 1%Q in l2.
      assert (a : (inject_Z (Qfloor (Qabs x)) < inject_Z 1)%Q) by (change (inject_Z 1) with 1%Q; lra). assert (b : (inject_Z (-1) < inject_Z (Qfloor (Qabs x)))%Q) by (change (inject_Z (-1)) with (-1)%Q; lra). rewrite <- Zlt_Qlt in a, b. lia. }
    rewrite e. reflexivity.
Qed.
