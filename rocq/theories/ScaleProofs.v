From Verif Require Import Base MiscModel MiscSpec MiscProofs ArrModel ArrSpec ArrProofs ScaleModel ScaleSpec.
From Coq Require Import QArith Qround Qminmax Qabs Lqa.
Open Scope nat_scope.

Lemma tab_loop {A} (val : nat -> option A) (P : nat -> A -> Prop) n (out : list A) : n <= length out ->
  (forall i, i < n -> exists v, val i = Some v /\ P i v) ->
  exists out', for_ 0 n (fun i out => v <- val i ;; aset out i v) out = Some out' /\ length out' = length out /\
  (forall i, i < n -> exists v, val i = Some v /\ nth_error out' i = Some v /\ P i v) /\ (forall i, n <= i -> nth_error out' i = nth_error out i).
Proof.
  intros HN HV. destruct (for_inv (fun k o => length o = length out /\ (forall i, i < k -> exists v, val i = Some v /\ nth_error o i = Some v /\ P i v) /\
    (forall i, k <= i -> nth_error o i = nth_error out i)) (fun i out => v <- val i ;; aset out i v) 0 n out) as [o [E [H1 [H2 H3]]]].
  - lia.
  - splits; auto. intros; lia.
  - intros k o Hk [I1 [I2 I3]]. destruct (HV k ltac:(lia)) as [v [Ev Pv]]. rewrite Ev. cbn [bind].
    destruct (aset_some o k v) as [o' Eo]; [lia|]. exists o'. split; [exact Eo|]. splits.
    + rewrite (aset_length _ _ _ _ Eo). exact I1.
    + intros i Hi. rewrite (aset_get _ _ _ _ i Eo). bd; [subst i; exists v; auto|apply I2; lia].
    + intros i Hi. rewrite (aset_get _ _ _ _ i Eo). bd; try lia. apply I3. lia.
  - exists o. auto.
Qed.

(** ** rounding *)
Lemma cheap_round_rounded x : (0 <= x)%Q -> (x + (1 # 2) < inject_Z two32)%Q -> exists z, cheap_round x = Some z /\ rounded x z.
Proof.
  intros H0 H1. unfold cheap_round, time_of. assert (B : Qle_bool 0 ((1 # 2) + x) = true) by (apply Qle_bool_iff; lra). rewrite B.
  pose proof (Qfloor_le ((1 # 2) + x)) as F1. pose proof (Qlt_floor ((1 # 2) + x)) as F2. rewrite inject_Z_plus in F2. change (inject_Z 1) with 1%Q in F2.
  set (f := Qfloor ((1 # 2) + x)) in *. clearbody f.
  assert (F3 : (f < two32)%Z) by (rewrite Zlt_Qlt; lra). assert (B2 : (f <? two32)%Z = true) by lia. rewrite B2.
  exists f. split; [reflexivity|]. unfold rounded. lra.
Qed.
Lemma rounded_between x y lo hi : rounded x y -> (inject_Z lo <= x <= inject_Z hi)%Q -> (lo <= y <= hi)%Z.
Proof.
  intros [H1 H2] [H3 H4]. split.
  - assert (H : (inject_Z lo - 1 < inject_Z y)%Q) by lra. change 1%Q with (inject_Z 1) in H. unfold Qminus in H. rewrite <- inject_Z_opp, <- inject_Z_plus, <- Zlt_Qlt in H. lia.
  - assert (H : (inject_Z y < inject_Z hi + 1)%Q) by lra. change 1%Q with (inject_Z 1) in H. rewrite <- inject_Z_plus, <- Zlt_Qlt in H. lia.
Qed.
Lemma rounded_int x y z : rounded x y -> (x == inject_Z z)%Q -> y = z.
Proof. intros H E. pose proof (rounded_between x y z z H ltac:(lra)). lia. Qed.
Lemma cheap_round_int z : (0 <= z < two32)%Z -> cheap_round (inject_Z z) = Some z.
Proof.
  intro H. destruct (cheap_round_rounded (inject_Z z)) as [y [E R]].
  - change 0%Q with (inject_Z 0). rewrite <- Zle_Qle. lia.
  - assert (Q : (inject_Z z + 1 <= inject_Z two32)%Q) by (change 1%Q with (inject_Z 1); rewrite <- inject_Z_plus, <- Zle_Qle; lia). lra.
  - rewrite E. f_equal. apply (rounded_int _ _ z R). reflexivity.
Qed.
Lemma cheap_round_ext x y : (x == y)%Q -> cheap_round x = cheap_round y.
Proof.
  intro H. unfold cheap_round, time_of. assert (E : ((1 # 2) + x == (1 # 2) + y)%Q) by (rewrite H; reflexivity).
  rewrite (Qfloor_comp _ _ E). 
  assert (B1 : Qle_bool 0 ((1 # 2) + x) = Qle_bool 0 ((1 # 2) + y)).
  { destruct (Qle_bool 0 ((1 # 2) + y)) eqn:EB; [apply Qle_bool_iff in EB; apply Qle_bool_iff; lra|].
    destruct (Qle_bool 0 ((1 # 2) + x)) eqn:EB2; auto. apply Qle_bool_iff in EB2. assert (0 <= (1 # 2) + y)%Q by lra. apply Qle_bool_iff in H0. congruence. }
  assert (B2 : Qle_bool ((1 # 2) + x) (-1 # 1) = Qle_bool ((1 # 2) + y) (-1 # 1)).
  { destruct (Qle_bool ((1 # 2) + y) (-1 # 1)) eqn:EB; [apply Qle_bool_iff in EB; apply Qle_bool_iff; lra|].
    destruct (Qle_bool ((1 # 2) + x) (-1 # 1)) eqn:EB2; auto. apply Qle_bool_iff in EB2. assert ((1 # 2) + y <= -1 # 1)%Q by lra. apply Qle_bool_iff in H0. congruence. }
  now rewrite B1, B2.
Qed.

Lemma inject_le a b : (a <= b)%Z -> (inject_Z a <= inject_Z b)%Q. Proof. rewrite Zle_Qle. auto. Qed.

Lemma interpolate_between a b t : (0 <= a < two32)%Z -> (0 <= b < two32)%Z -> (0 <= t <= 1)%Q ->
  (inject_Z (Z.min a b) <= (1 - t) * inject_Z a + t * inject_Z b <= inject_Z (Z.max a b))%Q.
Proof.
  intros Ha Hb Ht. pose proof (inject_le _ _ (Z.le_min_l a b)). pose proof (inject_le _ _ (Z.le_min_r a b)).
  pose proof (inject_le _ _ (Z.le_max_l a b)). pose proof (inject_le _ _ (Z.le_max_r a b)).
  set (lo := inject_Z (Z.min a b)) in *. set (hi := inject_Z (Z.max a b)) in *. set (x := inject_Z a) in *. set (y := inject_Z b) in *. clearbody lo hi x y.
  assert (0 <= t * (y - lo))%Q by (apply Qmult_le_0_compat; lra). assert (0 <= (1 - t) * (x - lo))%Q by (apply Qmult_le_0_compat; lra).
  assert (0 <= t * (hi - y))%Q by (apply Qmult_le_0_compat; lra). assert (0 <= (1 - t) * (hi - x))%Q by (apply Qmult_le_0_compat; lra).
  split; nra.
Qed.
Lemma time_interpolate_correct a b t : (0 <= a < two32)%Z -> (0 <= b < two32)%Z -> (0 <= t <= 1)%Q ->
  exists z, time_interpolate a b t = Some z /\ rounded ((1 - t) * inject_Z a + t * inject_Z b)%Q z /\ (Z.min a b <= z <= Z.max a b)%Z /\
  ((t == 0)%Q -> z = a) /\ ((t == 1)%Q -> z = b).
Proof.
  intros Ha Hb Ht. pose proof (interpolate_between a b t Ha Hb Ht) as HB. set (x := ((1 - t) * inject_Z a + t * inject_Z b)%Q) in *.
  assert (H0 : (0 <= x)%Q).
  { apply Qle_trans with (inject_Z (Z.min a b)); [|apply HB]. change 0%Q with (inject_Z 0). apply inject_le. lia. }
  assert (H1 : (x + (1 # 2) < inject_Z two32)%Q).
  { assert (Q : (inject_Z (Z.max a b) + 1 <= inject_Z two32)%Q) by (change 1%Q with (inject_Z 1); rewrite <- inject_Z_plus; apply inject_le; lia). lra. }
  destruct (cheap_round_rounded x H0 H1) as [z [E R]]. exists z. splits; auto; try (apply (rounded_between x z _ _ R HB)).
  - intro T. apply (rounded_int x z a R). unfold x. rewrite T. ring.
  - intro T. apply (rounded_int x z b R). unfold x. rewrite T. ring.
Qed.

Lemma mask_correct a b coefficients size out : size <= length a -> size <= length b -> size <= length coefficients -> size <= length out ->
  Forall word a -> Forall word b -> Forall (fun t => 0 <= t <= 1)%Q coefficients ->
  exists out', times_mask a b coefficients size out = Some out' /\ length out' = length out /\
  (forall i, size <= i -> nth_error out' i = nth_error out i) /\
  (forall i x y t, i < size -> nth_error a i = Some x -> nth_error b i = Some y -> nth_error coefficients i = Some t -> exists z, nth_error out' i = Some z /\ faded x y t z).
Proof.
  intros La Lb Lc Lo Fa Fb Fc.
  set (val := fun i => x <- aget a i ;; y <- aget b i ;; t <- aget coefficients i ;; v <- time_interpolate x y t ;; cheap_round (inject_Z v)).
  destruct (tab_loop val (fun i z => forall x y t, nth_error a i = Some x -> nth_error b i = Some y -> nth_error coefficients i = Some t -> faded x y t z) size out Lo) as [out' [E [HL [H1 H2]]]].
  - intros i Hi. destruct (nth_error_some a i ltac:(lia)) as [x Hx]. destruct (nth_error_some b i ltac:(lia)) as [y Hy]. destruct (nth_error_some coefficients i ltac:(lia)) as [t Ht].
    unfold val, aget. rewrite Hx, Hy, Ht. cbn [bind].
    assert (Wx : word x) by (eapply Forall_forall in Fa; [exact Fa|eapply nth_error_In; eauto]).
    assert (Wy : word y) by (eapply Forall_forall in Fb; [exact Fb|eapply nth_error_In; eauto]).
    assert (Wt : (0 <= t <= 1)%Q) by (eapply Forall_forall in Fc; [exact Fc|eapply nth_error_In; eauto]).
    destruct (time_interpolate_correct x y t Wx Wy Wt) as [z [Ez [Rz [Bz [Z0 Z1]]]]]. rewrite Ez. cbn [bind].
    unfold word in *. rewrite cheap_round_int by lia. exists z. split; [reflexivity|]. intros x0 y0 t0 X Y T. injection X as <-. injection Y as <-. injection T as <-. unfold faded. auto.
  - exists out'. splits; auto.
    + rewrite <- E. unfold times_mask. apply for_ext. intros i o. unfold val. destruct (aget a i); [|reflexivity]. cbn [bind]. destruct (aget b i); [|reflexivity]. cbn [bind].
      destruct (aget coefficients i); [|reflexivity]. cbn [bind]. destruct (time_interpolate z z0 q); reflexivity.
    + intros i x y t Hi Hx Hy Ht. destruct (H1 i Hi) as [z [_ [Hz Pz]]]. exists z. auto.
Qed.

Lemma blend_is_mask a b fraction size out : times_blend a b fraction size out = times_mask a b (repeat fraction size) size out.
Proof.
  unfold times_blend, times_mask, for_. apply for_from_ext. intros i o Hi. destruct (aget a i); [|reflexivity]. cbn [bind]. destruct (aget b i); [|reflexivity]. cbn [bind].
  unfold aget. rewrite nth_error_repeat by lia. reflexivity.
Qed.

Lemma samples_blend_correct a b fraction size out : size <= length a -> size <= length b -> size <= length out ->
  exists out', samples_blend a b fraction size out = Some out' /\ length out' = length out /\ (forall i, size <= i -> nth_error out' i = nth_error out i) /\
  (forall i x y, i < size -> nth_error a i = Some x -> nth_error b i = Some y -> exists z, nth_error out' i = Some z /\ (z == x + fraction * (y - x))%Q).
Proof.
  intros La Lb Lo. destruct (tab_loop (fun i => x <- aget a i ;; y <- aget b i ;; Some (sample_interpolate x y fraction)) 
     (fun i z => forall x y, nth_error a i = Some x -> nth_error b i = Some y -> (z == x + fraction * (y - x))%Q) size out Lo) as [out' [E [HL [H1 H2]]]].
  - intros i Hi. destruct (nth_error_some a i ltac:(lia)) as [x Hx]. destruct (nth_error_some b i ltac:(lia)) as [y Hy]. unfold aget. rewrite Hx, Hy. cbn [bind].
    eexists; split; [reflexivity|]. intros x0 y0 X Y. injection X as <-. injection Y as <-. unfold sample_interpolate. ring.
  - exists out'. splits; auto.
    + rewrite <- E. unfold samples_blend. apply for_ext. intros i o. destruct (aget a i); [|reflexivity]. cbn [bind]. destruct (aget b i); reflexivity.
    + intros i x y Hi Hx Hy. destruct (H1 i Hi) as [z [_ [Hz Pz]]]. exists z. auto.
Qed.

(** ** scale *)
Lemma scale_value x y f i2 : i2 < f -> (0 <= x)%Z -> (0 <= y)%Z -> (x * Z.of_nat f < two32)%Z -> (y * Z.of_nat f < two32)%Z ->
  time_interpolate (t_mul x (Z.of_nat f)) (t_mul y (Z.of_nat f)) (inject_Z (Z.of_nat i2) / inject_Z (Z.of_nat f))%Q =
  Some ((Z.of_nat f - Z.of_nat i2) * x + Z.of_nat i2 * y)%Z.
Proof.
  intros H Hx Hy Bx By. unfold t_mul. rewrite !u32_small by nia. unfold time_interpolate.
  assert (HF : (0 < inject_Z (Z.of_nat f))%Q) by (apply inject_pos; lia).
  rewrite (cheap_round_ext _ (inject_Z ((Z.of_nat f - Z.of_nat i2) * x + Z.of_nat i2 * y))).
  - apply cheap_round_int. split; [nia|].
    set (F := Z.of_nat f) in *. set (I := Z.of_nat i2) in *. assert (I0 : (0 <= I < F)%Z) by lia.
    assert (H3 : ((F - I) * x <= (F - I) * Z.max x y)%Z) by nia. assert (H4 : (I * y <= I * Z.max x y)%Z) by nia.
    assert (H5 : (F * Z.max x y < two32)%Z) by (destruct (Z.max_spec x y) as [[_ ->]|[_ ->]]; lia). lia.
  - rewrite !inject_Z_mult, inject_Z_plus, !inject_Z_mult. unfold Zminus. rewrite inject_Z_plus, inject_Z_opp. field. lra.
Qed.

Lemma scale_correct input count factor out : count <= length input -> 1 <= count -> factor * (count - 1) <= length out ->
  Forall (fun x => 0 <= x /\ x * Z.of_nat factor < two32)%Z input ->
  exists out', times_scale input count factor out = Some out' /\ length out' = length out /\
  (forall j, factor * (count - 1) <= j -> nth_error out' j = nth_error out j) /\
  (forall i k x y, S i < count -> k < factor -> nth_error input i = Some x -> nth_error input (S i) = Some y ->
    nth_error out' (factor * i + k) = Some ((Z.of_nat factor - Z.of_nat k) * x + Z.of_nat k * y)%Z).
Proof.
  intros HC H1 HO HF. unfold times_scale. rewrite slice_some by lia. cbn [bind]. rewrite skipn_O.
  set (temp := map (fun x => t_mul x (Z.of_nat factor)) (firstn count input)).
  assert (HT : forall i x, i < count -> nth_error input i = Some x -> aget temp i = Some (t_mul x (Z.of_nat factor))).
  { intros i x Hi Hx. unfold temp, aget. rewrite nth_error_map, nth_error_firstn by lia. now rewrite Hx. }
  assert (HB : forall i x, nth_error input i = Some x -> (0 <= x /\ x * Z.of_nat factor < two32)%Z).
  { intros i x Hx. eapply Forall_forall in HF; [exact HF|eapply nth_error_In; eauto]. }
  set (P := fun n (o : list Z) => length o = length out /\ (forall j, n <= j -> nth_error o j = nth_error out j) /\
    (forall i k x y, k < factor -> factor * i + k < n -> nth_error input i = Some x -> nth_error input (S i) = Some y ->
      nth_error o (factor * i + k) = Some ((Z.of_nat factor - Z.of_nat k) * x + Z.of_nat k * y)%Z)).
  match goal with |- exists q, for_ 1 count ?body out = _ /\ _ => destruct (for_inv (fun i o => P (factor * (i - 1)) o) body 1 count out) as [o [E HP]] end.
  - lia.
  - unfold P. replace (1 - 1) with 0 by lia. rewrite Nat.mul_0_r. splits; auto. intros; lia.
  - intros i o Hi HP. destruct (nth_error_some input (i - 1) ltac:(lia)) as [x Hx]. destruct (nth_error_some input i ltac:(lia)) as [y Hy].
    destruct (HB _ _ Hx) as [X1 X2]. destruct (HB _ _ Hy) as [Y1 Y2].
    match goal with |- exists q, for_ 0 factor ?body o = _ /\ _ => destruct (for_inv (fun k o => P (factor * (i - 1) + k) o) body 0 factor o) as [o' [E' HP']] end.
    + lia.
    + now rewrite Nat.add_0_r.
    + intros k o1 Hk [I1 [I2 I3]]. rewrite (HT (i - 1) x), (HT i y) by (auto; lia). cbn [bind]. rewrite scale_value by (auto; lia). cbn [bind].
      set (v := ((Z.of_nat factor - Z.of_nat k) * x + Z.of_nat k * y)%Z).
      destruct (aset_some o1 (factor * (i - 1) + k) v) as [o2 Eo]; [rewrite I1; nia|]. exists o2. split; [exact Eo|]. unfold P. splits.
      * rewrite (aset_length _ _ _ _ Eo). exact I1.
      * intros j Hj. rewrite (aset_get _ _ _ _ j Eo). bd; try lia. apply I2. lia.
      * intros i1 k1 x1 y1 Hk1 Hn Hx1 Hy1. rewrite (aset_get _ _ _ _ _ Eo). destruct (Nat.eqb_spec (factor * i1 + k1) (factor * (i - 1) + k)) as [EQ|NE].
        -- assert (i1 = i - 1 /\ k1 = k) as [-> ->] by (assert (i1 = i - 1) by (destruct (Nat.lt_trichotomy i1 (i - 1)) as [?|[?|?]]; auto; exfalso; nia); subst; lia).
           replace (S (i - 1)) with i in Hy1 by lia. unfold v. congruence.
        -- apply I3; auto. lia.
    + exists o'. split; [exact E'|]. replace (factor * (S i - 1)) with (factor * (i - 1) + factor) by (replace (S i - 1) with (S (i - 1)) by lia; lia). exact HP'.
  - exists o. destruct HP as [I1 [I2 I3]]. splits; auto. intros i k x y Hi Hk Hx Hy. apply I3; auto. nia.
Qed.

(** ** seamless *)
Lemma interpolate_at_0 x y : (0 <= x < two32)%Z -> time_interpolate x y (inject_Z (Z.of_nat 0)) = Some x.
Proof. intro H. unfold time_interpolate. rewrite (cheap_round_ext _ (inject_Z x)) by (change (inject_Z (Z.of_nat 0)) with 0%Q; ring). now apply cheap_round_int. Qed.
Lemma interpolate_at_1 x y : (0 <= y < two32)%Z -> time_interpolate x y (inject_Z (Z.of_nat 1)) = Some y.
Proof. intro H. unfold time_interpolate. rewrite (cheap_round_ext _ (inject_Z y)) by (change (inject_Z (Z.of_nat 1)) with 1%Q; ring). now apply cheap_round_int. Qed.

Lemma seamless_right_correct a b0 b out : 0 < length a -> 1 <= length b -> length a <= length out -> Forall word a -> Forall word (b0 :: b) ->
  exists out', seamless_right a (b0 :: b) out = Some out' /\ firstn (length a) out' = firstn (length a - 1) a ++ [b0] /\ skipn (length a) out' = skipn (length a) out.
Proof.
  intros La Lb Lo Fa Fb. unfold seamless_right. set (count := Nat.min (length a) (length (b0 :: b) / 2)).
  assert (HB2 : length (b0 :: b) / 2 >= 1) by (cbn [length]; apply (Nat.div_le_lower_bound _ 2 1); lia).
  assert (HC : 1 <= count <= length a) by (unfold count; lia).
  assert (HCB : count <= length (b0 :: b)) by (unfold count; pose proof (Nat.div_le_upper_bound (length (b0 :: b)) 2 (length (b0 :: b)) ltac:(lia) ltac:(lia)); lia).
  clearbody count. set (start := length a - count).
  assert (WA : forall i x, nth_error a i = Some x -> word x) by (intros i x Hx; eapply Forall_forall in Fa; [exact Fa|eapply nth_error_In; eauto]).
  assert (WB : forall i x, nth_error (b0 :: b) i = Some x -> word x) by (intros i x Hx; eapply Forall_forall in Fb; [exact Fb|eapply nth_error_In; eauto]).
  destruct (tab_loop (fun i => aget a i) (fun i v => nth_error a i = Some v) start out) as [o1 [E1 [L1 [G1 K1]]]].
  { unfold start. lia. }
  { intros i Hi. unfold aget. destruct (nth_error_some a i) as [x Hx]; [unfold start in Hi; lia|]. eauto. }
  rewrite E1. cbn [bind].
  match goal with |- exists q, for_ 0 count ?body o1 = _ /\ _ => destruct (for_inv (fun k o => length o = length out /\ (forall j, start + k <= j -> nth_error o j = nth_error out j) /\
    (forall j, j < start + k -> nth_error o j = if j =? length a - 1 then Some b0 else nth_error a j)) body 0 count o1) as [o [E [I1 [I2 I3]]]] end.
  - lia.
  - rewrite Nat.add_0_r. splits; auto. intros j Hj. destruct (G1 j Hj) as [v [_ [Hv Pv]]]. rewrite Hv, Pv. destruct (Nat.eqb_spec j (length a - 1)); [unfold start in *; lia|reflexivity].
  - intros k o Hk [J1 [J2 J3]]. destruct (nth_error_some a (k + start)) as [x Hx]; [unfold start; lia|]. destruct (nth_error_some (b0 :: b) (count - (1 + k))) as [y Hy]; [lia|].
    unfold aget. rewrite Hx, Hy. cbn [bind].
    assert (V : exists v, time_interpolate x y (inject_Z (Z.of_nat ((1 + k) / count))) = Some v /\ (v = if k =? count - 1 then b0 else x)).
    { destruct (Nat.eqb_spec k (count - 1)) as [->|NE].
      - replace ((1 + (count - 1)) / count) with 1 by (replace (1 + (count - 1)) with count by lia; symmetry; apply Nat.div_same; lia).
        replace (count - (1 + (count - 1))) with 0 in Hy by lia. cbn in Hy. injection Hy as <-. exists b0. split; [|reflexivity]. apply interpolate_at_1. apply (WB 0). reflexivity.
      - rewrite (Nat.div_small (1 + k)) by lia. exists x. split; [|reflexivity]. apply interpolate_at_0. eapply WA; eauto. }
    destruct V as [v [-> Ev]]. cbn [bind]. destruct (aset_some o (k + start) v) as [o' Eo]; [rewrite J1; unfold start; lia|]. exists o'. split; [exact Eo|]. splits.
    + rewrite (aset_length _ _ _ _ Eo). exact J1.
    + intros j Hj. rewrite (aset_get _ _ _ _ j Eo). bd; try lia. apply J2. lia.
    + intros j Hj. rewrite (aset_get _ _ _ _ j Eo). destruct (Nat.eqb_spec j (k + start)) as [->|NE]; [|apply J3; lia].
      rewrite Ev. destruct (Nat.eqb_spec k (count - 1)), (Nat.eqb_spec (k + start) (length a - 1)); unfold start in *; try lia; auto.
  - exists o. split; [exact E|]. replace (start + count) with (length a) in * by (unfold start; lia). split.
    + apply nth_error_length_eq.
      * rewrite !app_length, !firstn_length. cbn [length]. lia.
      * intros j Hj. rewrite firstn_length in Hj. rewrite nth_error_firstn by lia. rewrite I3 by lia. destruct (Nat.eqb_spec j (length a - 1)) as [->|NE].
        -- rewrite nth_error_app2 by (rewrite firstn_length; lia). rewrite firstn_length, Nat.min_l, Nat.sub_diag by lia. reflexivity.
        -- rewrite nth_error_app1 by (rewrite firstn_length; lia). rewrite nth_error_firstn by lia. reflexivity.
    + apply nth_error_ext. intro j. rewrite !nth_error_skipn. apply I2. lia.
Qed.

Lemma seamless_left_oob a b out : 2 <= length a -> 1 <= length b -> seamless_left a b out = None.
Proof.
  intros La Lb. unfold seamless_left. assert (HC : exists c, Nat.min (length b) (length a / 2) = S c).
  { assert (1 <= length a / 2) by (apply Nat.div_le_lower_bound; lia). exists (Nat.min (length b) (length a / 2) - 1). lia. }
  destruct HC as [c ->]. unfold for_ at 1. cbn [Nat.sub for_from]. destruct (aget b 0); [|reflexivity]. cbn [bind].
  rewrite Nat.sub_0_r. unfold aget at 1. rewrite (proj2 (nth_error_None a (length a))) by lia. reflexivity.
Qed.
