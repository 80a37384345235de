From Verif Require Import Base MiscModel MiscSpec MiscProofs ArrModel ArrSpec ArrProofs ScaleModel ScaleSpec ScaleProofs.
From Coq Require Import QArith Qround Qminmax Qabs Lqa.
Open Scope nat_scope.

Lemma replace_front {A} (m l : list A) : length l <= length m -> replace m 0 l = l ++ skipn (length l) m.
Proof.
  intro H. apply nth_error_ext. intro j. rewrite replace_get by lia. rewrite Nat.sub_0_r.
  destruct (Nat.lt_ge_cases j (length l)) as [J|J].
  - rewrite nth_error_app1 by lia. bd; auto; lia.
  - rewrite nth_error_app2 by lia. rewrite nth_error_skipn. replace (length l + (j - length l)) with j by lia. bd; auto; lia.
Qed.
Lemma inplace_map {A} (g : A -> A) n (l : list A) : n <= length l ->
  for_ 0 n (fun i m => x <- aget m i ;; aset m i (g x)) l = Some (map g (firstn n l) ++ skipn n l).
Proof.
  intro H. pose proof (slice_some l 0 n ltac:(lia)) as S. rewrite skipn_O in S. pose proof (loop_map_total g l 0 n _ S) as E. cbn [Nat.add] in E.
  rewrite E, replace_front by (rewrite map_length, firstn_length; lia). rewrite map_length, firstn_length, Nat.min_l by lia. reflexivity.
Qed.
Lemma Forall2_length {A B} (P : A -> B -> Prop) l l' : Forall2 P l l' -> length l = length l'.
Proof. induction 1; cbn; auto. Qed.
Lemma Forall2_impl {A B} (P Q : A -> B -> Prop) l l' : (forall x y, P x y -> Q x y) -> Forall2 P l l' -> Forall2 Q l l'.
Proof. intro H. induction 1; constructor; auto. Qed.
Lemma inplace_map_opt {A} (f : A -> option A) n (l l' : list A) : n <= length l -> Forall2 (fun x y => f x = Some y) (firstn n l) l' ->
  for_ 0 n (fun i m => x <- aget m i ;; v <- f x ;; aset m i v) l = Some (l' ++ skipn n l).
Proof.
  intros H F. pose proof (slice_some l 0 n ltac:(lia)) as S. rewrite skipn_O in S. pose proof (loop_map f l 0 n _ l' S F) as E. cbn [Nat.add] in E.
  assert (HL : length l' = n) by (apply Forall2_length in F; rewrite firstn_length in F; lia).
  rewrite E, replace_front by lia. now rewrite HL.
Qed.
Lemma fold_loop {A B} (f : B -> A -> option B) (l : list A) n s r : n <= length l ->
  fold_left (fun a x => b <- a ;; f b x) (firstn n l) (Some s) = Some r -> for_ 0 n (fun i s => x <- aget l i ;; f s x) s = Some r.
Proof.
  intros H E. revert r E. induction n; intros r E.
  - cbn in E. injection E as <-. apply for_empty. lia.
  - destruct (nth_error_some l n ltac:(lia)) as [x Hx].
    assert (F : firstn (S n) l = firstn n l ++ [x]).
    { apply nth_error_ext. intro j. destruct (Nat.lt_trichotomy j n) as [J|[J|J]].
      - rewrite nth_error_firstn, nth_error_app1, nth_error_firstn by (try rewrite firstn_length; lia). reflexivity.
      - subst j. rewrite nth_error_firstn, nth_error_app2 by (try rewrite firstn_length; lia). rewrite firstn_length, Nat.min_l, Nat.sub_diag by lia. exact Hx.
      - rewrite nth_error_firstn_ge by lia. symmetry. apply nth_error_None. rewrite app_length, firstn_length. cbn. lia. }
    rewrite F, fold_left_app in E. cbn [fold_left] in E. destruct (fold_left _ (firstn n l) (Some s)) as [b|] eqn:EB; [|discriminate]. cbn [bind] in E.
    rewrite (for_split _ 0 n (S n)) by lia. rewrite (IHn ltac:(lia) b eq_refl). cbn [bind]. unfold for_. replace (S n - n) with 1 by lia. cbn [for_from].
    unfold aget. rewrite Hx. cbn [bind]. rewrite E. reflexivity.
Qed.
Lemma firstn_Forall {A} (P : A -> Prop) n l : Forall P l -> Forall P (firstn n l).
Proof. intro H. revert n. induction H; intros [|n]; cbn; constructor; auto. Qed.

(** ** sums *)
Lemma zsum_nn l : Forall word l -> (0 <= zsum l)%Z.
Proof. induction 1 as [|x l [Hx _] _ IH]; [cbn; lia|]. cbn [zsum fold_right]. fold (zsum l). lia. Qed.
Lemma sum_times_correct l n : n <= length l -> sum_times l n = Some (u32 (zsum (firstn n l))).
Proof.
  intro H. apply fold_loop; [exact H|]. generalize (firstn n l). intro k. 
  assert (G : forall s, fold_left (fun a x => b <- a ;; Some (t_add b x)) k (Some (u32 s)) = Some (u32 (s + zsum k))).
  { induction k as [|x k IH]; intro s; cbn [fold_left zsum fold_right]; [f_equal; f_equal; lia|]. cbn [bind].
    replace (t_add (u32 s) x) with (u32 (s + x)); [rewrite IH; f_equal; f_equal; unfold zsum; lia|]. unfold t_add, u32. rewrite Zplus_mod_idemp_l. reflexivity. }
  apply (G 0%Z).
Qed.
Lemma f64_sum_correct l n : 1 <= n <= length l -> exists s, f64_sum l n = Some s /\ (s == qsum (firstn n l))%Q.
Proof.
  intro H. unfold f64_sum. destruct (nth_error_some l (n - 1) ltac:(lia)) as [z Hz]. unfold aget at 1. rewrite Hz. cbn [bind].
  assert (B : (0 <? n) = true) by (apply Nat.ltb_lt; lia). rewrite B. cbn [need bind].
  assert (HL : skipn (n - 1) (firstn n l) = [z]).
  { apply nth_error_ext. intro j. rewrite nth_error_skipn. destruct j; [rewrite nth_error_firstn, Nat.add_0_r by lia; exact Hz|].
    rewrite nth_error_firstn_ge by lia. destruct j; reflexivity. }
  match goal with |- context [for_ 0 (n - 1) ?body _] => destruct (for_inv (fun k '(r, c) => (c == 0)%Q /\ (r == qsum (skipn (n - 1 - k) (firstn n l)))%Q) body 0 (n - 1) (z, 0%Q)) as [[r c] [E [C R]]] end.
  - lia.
  - rewrite Nat.sub_0_r, HL. cbn. split; ring.
  - intros k [r c] Hk [C R]. destruct (nth_error_some l (n - 2 - k) ltac:(lia)) as [x Hx]. unfold aget. rewrite Hx. cbn [bind].
    eexists (_, _). split; [reflexivity|]. split.
    + rewrite C. destruct (Qle_bool x r); ring.
    + rewrite R. replace (skipn (n - 1 - S k) (firstn n l)) with (x :: skipn (n - 1 - k) (firstn n l)).
      * cbn [qsum fold_right]. unfold qsum. ring.
      * apply nth_error_ext. intro j. rewrite nth_error_skipn. destruct j.
        -- cbn [nth_error]. rewrite nth_error_firstn by lia. rewrite Nat.add_0_r. replace (n - 1 - S k) with (n - 2 - k) by lia. symmetry. exact Hx.
        -- cbn [nth_error]. rewrite nth_error_skipn. f_equal. lia.
  - rewrite E. cbn [bind]. exists (c + r)%Q. split; [reflexivity|]. rewrite C, R, Nat.sub_diag, skipn_O. ring.
Qed.

(** ** maxima *)
Lemma zmax_nn l : (0 <= zmax l)%Z. Proof. induction l; cbn; [|unfold zmax in *]; lia. Qed.
Lemma zmax_in l x : In x l -> (x <= zmax l)%Z.
Proof. induction l; cbn; [contradiction|]. unfold zmax in *. intros [->|H]; [|specialize (IHl H)]; lia. Qed.
Lemma max_fold {A} (f : A -> option Z) (g : A -> Z) l : Forall (fun x => f x = Some (g x)) l -> forall m,
  fold_left (fun a x => b <- a ;; t <- f x ;; Some (if (b <? t)%Z then t else b)) l (Some m) = Some (Z.max m (zmax (map g l))) \/ (m < 0)%Z.
Proof.
  induction 1 as [|x l Hx _ IH]; intro m; cbn [fold_left map zmax fold_right].
  - destruct (Z.ltb_spec m 0); [now right|left]. f_equal. lia.
  - cbn [bind]. rewrite Hx. cbn [bind]. destruct (Z.ltb_spec m 0) as [?|M]; [now right|]. left.
    destruct (Z.ltb_spec m (g x)).
    + destruct (IH (g x)) as [E|E]; [|lia]. rewrite E. f_equal. unfold zmax. lia.
    + destruct (IH m) as [E|E]; [|lia]. rewrite E. f_equal. unfold zmax. lia.
Qed.
Lemma times_absolute_max_correct l n : n <= length l -> times_absolute_max l n = Some (zmax (firstn n l)).
Proof.
  intro H. apply fold_loop; [exact H|].
  destruct (max_fold (fun x => Some x) (fun x : Z => x) (firstn n l)) with (m := 0%Z) as [E|E]; [apply Forall_forall; reflexivity| |lia].
  cbn [bind] in E. rewrite map_id in E. rewrite E. f_equal. pose proof (zmax_nn (firstn n l)). lia.
Qed.
Lemma time_of_abs x : (Qabs x < inject_Z two32)%Q -> time_of (if Qlt_bool x 0 then (-1) * x else x)%Q = Some (Qfloor (Qabs x)).
Proof.
  intro H. assert (E : ((if Qlt_bool x 0 then (-1) * x else x) == Qabs x)%Q).
  { destruct (Qlt_bool x 0) eqn:B.
    - apply Qlt_bool_iff in B. rewrite Qabs_neg by lra. ring.
    - apply Qlt_bool_false in B. rewrite Qabs_pos by lra. reflexivity. }
  unfold time_of. assert (B : Qle_bool 0 (if Qlt_bool x 0 then (-1) * x else x)%Q = true) by (apply Qle_bool_iff; rewrite E; apply Qabs_nonneg).
  rewrite B, (Qfloor_comp _ _ E). assert (F : (Qfloor (Qabs x) < two32)%Z) by (rewrite Zlt_Qlt; pose proof (Qfloor_le (Qabs x)); lra).
  replace (Qfloor (Qabs x) <? two32)%Z with true by lia. reflexivity.
Qed.
Lemma samples_absolute_max_correct l n : n <= length l -> Forall (fun x => Qabs x < inject_Z two32)%Q (firstn n l) ->
  samples_absolute_max l n = Some (zmax (map (fun x => Qfloor (Qabs x)) (firstn n l))).
Proof.
  intros H F. apply fold_loop; [exact H|].
  destruct (max_fold (fun x => time_of (if Qlt_bool x 0 then (-1) * x else x)%Q) (fun x => Qfloor (Qabs x)) (firstn n l)) with (m := 0%Z) as [E|E].
  - eapply Forall_impl; [|exact F]. intros x Hx. now apply time_of_abs.
  - rewrite E. f_equal. pose proof (zmax_nn (map (fun x => Qfloor (Qabs x)) (firstn n l))). lia.
  - lia.
Qed.

(** ** scale to a sum *)
Lemma Forall2_exists {A B} (P : A -> B -> Prop) l : Forall (fun x => exists y, P x y) l -> exists l', Forall2 P l l'.
Proof. induction 1 as [|x l [y Hy] _ [l' IH]]; [exists []|exists (y :: l')]; constructor; auto. Qed.
Lemma in_le_zsum l x : Forall word l -> In x l -> (x <= zsum l)%Z.
Proof.
  induction 1 as [|y l Hy HF IH]; cbn; [contradiction|]. intros [->|H]; unfold word in *.
  - pose proof (zsum_nn l HF). unfold zsum in *. lia.
  - specialize (IH H). unfold zsum in *. lia.
Qed.
Lemma scale_sum_correct l n sum : n <= length l -> Forall word (firstn n l) -> word sum -> (0 < zsum (firstn n l) < two32)%Z ->
  exists l', times_scale_sum l n sum l = Some (l' ++ skipn n l) /\
  Forall2 (fun x y => rounded (inject_Z x * inject_Z sum / inject_Z (zsum (firstn n l)))%Q y) (firstn n l) l'.
Proof.
  intros H F HS HT. unfold times_scale_sum. rewrite sum_times_correct by exact H. cbn [bind]. rewrite u32_small by lia. set (t := zsum (firstn n l)) in *.
  assert (B : (t =? 0)%Z = false) by lia. rewrite B.
  assert (HP : (0 < inject_Z t)%Q) by (apply inject_pos; lia).
  destruct (Forall2_exists (fun x y => cheap_round (inject_Z x * (inject_Z sum / inject_Z t))%Q = Some y /\ rounded (inject_Z x * inject_Z sum / inject_Z t)%Q y) (firstn n l)) as [l' HF].
  { apply Forall_forall. intros x Hx. assert (XT : (x <= t)%Z) by (apply in_le_zsum; auto). assert (WX : word x) by (eapply Forall_forall in F; eauto). unfold word in *.
    assert (EQ : (inject_Z x * (inject_Z sum / inject_Z t) == inject_Z x * inject_Z sum / inject_Z t)%Q) by (field; lra).
    set (v := (inject_Z x * inject_Z sum / inject_Z t)%Q) in *.
    assert (V : (v * inject_Z t == inject_Z x * inject_Z sum)%Q) by (unfold v; field; lra).
    assert (S0 : (0 <= inject_Z sum)%Q) by (change 0%Q with (inject_Z 0); apply inject_le; lia).
    assert (X0 : (0 <= inject_Z x <= inject_Z t)%Q) by (split; [change 0%Q with (inject_Z 0)|]; apply inject_le; lia).
    assert (S1 : (inject_Z sum + 1 <= inject_Z two32)%Q) by (change 1%Q with (inject_Z 1); rewrite <- inject_Z_plus; apply inject_le; lia).
    assert (V0 : (0 <= v)%Q) by (apply Qmult_le_0_compat; [apply Qmult_le_0_compat; lra|apply Qinv_le_0_compat; lra]).
    assert (V1 : (v <= inject_Z sum)%Q) by (apply (Qmult_le_r _ _ (inject_Z t) HP); rewrite V, (Qmult_comm (inject_Z sum)); apply Qmult_le_compat_r; lra).
    destruct (cheap_round_rounded v V0 ltac:(lra)) as [y [E R]]. exists y. split; [|exact R]. rewrite (cheap_round_ext _ v EQ). exact E. }
  exists l'. split.
  - apply inplace_map_opt; [exact H|]. eapply Forall2_impl; [|exact HF]. cbn. tauto.
  - eapply Forall2_impl; [|exact HF]. cbn. tauto.
Qed.
Lemma rounded_sums (f : Z -> Q) l l' : Forall2 (fun x y => rounded (f x) y) l l' ->
  (Qabs (inject_Z (zsum l') - qsum (map f l)) <= inject_Z (Z.of_nat (length l)) / 2)%Q.
Proof.
  induction 1 as [|x y l l' R _ IH]; [cbn; unfold Qle; cbn; lia|]. cbn [map length zsum fold_right qsum].
  fold (zsum l'). fold (qsum (map f l)). rewrite Nat2Z.inj_succ. unfold Z.succ. rewrite !inject_Z_plus. change (inject_Z 1) with 1%Q. destruct R as [R1 R2].
  apply Qabs_Qle_condition in IH. apply Qabs_Qle_condition. set (n := inject_Z (Z.of_nat (length l))) in *. assert (D : (n / 2 == n * (1#2))%Q) by field. assert (D2 : ((n + 1) / 2 == n * (1#2) + (1 # 2))%Q) by field. rewrite D in IH. rewrite D2. lra.
Qed.
Lemma qsum_scale (c : Q) l : (qsum (map (fun x => inject_Z x * c) l) == inject_Z (zsum l) * c)%Q.
Proof. induction l; cbn [map qsum zsum fold_right]; [ring|]. fold (zsum l). fold (qsum (map (fun x => inject_Z x * c)%Q l)). rewrite IHl, inject_Z_plus. ring. Qed.
Lemma qsum_ext {A} (f g : A -> Q) l : (forall x, f x == g x)%Q -> (qsum (map f l) == qsum (map g l))%Q.
Proof. intro H. induction l; cbn [map qsum fold_right]; [reflexivity|]. fold (qsum (map f l)). fold (qsum (map g l)). now rewrite IHl, H. Qed.
Lemma qsum_scaled_sum sum l : (0 < zsum l)%Z -> (qsum (map (fun x => inject_Z x * inject_Z sum / inject_Z (zsum l)) l) == inject_Z sum)%Q.
Proof.
  intro H. assert (HP : (0 < inject_Z (zsum l))%Q) by (now apply inject_pos).
  rewrite (qsum_ext _ (fun x => inject_Z x * (inject_Z sum / inject_Z (zsum l)))%Q) by (intro; field; lra). rewrite qsum_scale. field. lra.
Qed.
Lemma scale_sum_error l n sum : n <= length l -> Forall word (firstn n l) -> word sum -> (0 < zsum (firstn n l) < two32)%Z ->
  exists l', times_scale_sum l n sum l = Some (l' ++ skipn n l) /\ length l' = n /\
  Forall2 (fun x y => rounded (inject_Z x * inject_Z sum / inject_Z (zsum (firstn n l)))%Q y) (firstn n l) l' /\
  (Qabs (inject_Z (zsum l') - inject_Z sum) <= inject_Z (Z.of_nat n) / 2)%Q /\ ((zsum (firstn n l) | sum)%Z -> zsum l' = sum).
Proof.
  intros H F HS HT. destruct (scale_sum_correct l n sum H F HS HT) as [l' [E R]]. exists l'.
  assert (HL : length (firstn n l) = n) by (rewrite firstn_length; lia). splits; auto.
  - apply Forall2_length in R. lia.
  - pose proof (rounded_sums (fun x => inject_Z x * inject_Z sum / inject_Z (zsum (firstn n l)))%Q _ _ R) as RS. rewrite HL in RS. rewrite qsum_scaled_sum in RS by lia. exact RS.
  - intros [k ->]. assert (HP : (0 < inject_Z (zsum (firstn n l)))%Q) by (apply inject_pos; lia). set (t := zsum (firstn n l)) in *.
    enough (G : forall a b, Forall2 (fun x y => rounded (inject_Z x * inject_Z (k * t) / inject_Z t)%Q y) a b -> zsum b = (k * zsum a)%Z) by (apply (G _ _ R)).
    induction 1 as [|x y a b Rx _ IH]; [cbn; lia|]. cbn [zsum fold_right]. fold (zsum a). fold (zsum b). rewrite IH.
    rewrite (rounded_int _ _ (k * x) Rx); [lia|]. rewrite !inject_Z_mult. field. lra.
Qed.

(** ** scale to a maximum *)
Lemma multiply_front {V} (mul : V -> V -> V) l n v : n <= length l -> arr_multiply V mul l 0 n v = Some (map (fun x => mul x v) (firstn n l) ++ skipn n l).
Proof. intro H. exact (inplace_map (fun x => mul x v) n l H). Qed.
Lemma zmax_scale k l : (0 <= k)%Z -> zmax (map (fun x => x * k)%Z l) = (zmax l * k)%Z.
Proof. intro H. induction l; cbn [map zmax fold_right]; [lia|]. fold (zmax l). fold (zmax (map (fun x => x * k)%Z l)). rewrite IHl. nia. Qed.
Lemma times_scale_y_correct l n target k : n <= length l -> Forall word (firstn n l) -> word target -> (0 < zmax (firstn n l))%Z -> target = (k * zmax (firstn n l))%Z ->
  times_scale_y l n target = Some (map (fun x => x * k)%Z (firstn n l) ++ skipn n l) /\ zmax (map (fun x => x * k)%Z (firstn n l)) = target.
Proof.
  intros H F HT HM ->. unfold times_scale_y. rewrite times_absolute_max_correct by exact H. cbn [bind]. set (m := zmax (firstn n l)) in *.
  assert (B : (m =? 0)%Z = false) by lia. rewrite B, Z.div_mul, multiply_front by lia. unfold word in HT. assert (K : (0 <= k)%Z) by nia. split.
  - f_equal. f_equal. apply map_ext_in. intros x Hx. unfold t_mul. rewrite u32_small; [reflexivity|].
    assert (X1 : (x <= m)%Z) by (now apply zmax_in). eapply Forall_forall in F; [|exact Hx]. unfold word in F. nia.
  - rewrite zmax_scale by exact K. fold m. lia.
Qed.
Lemma samples_scale_y_factor l n target : n <= length l -> Forall (fun x => Qabs x < inject_Z two32)%Q (firstn n l) ->
  (0 < zmax (map (fun x => Qfloor (Qabs x)) (firstn n l)))%Z ->
  samples_scale_y l n target = Some (map (fun x => x * (inject_Z (Z.of_nat n) / inject_Z (zmax (map (fun x => Qfloor (Qabs x)) (firstn n l)))))%Q (firstn n l) ++ skipn n l).
Proof.
  intros H F HM. unfold samples_scale_y. rewrite samples_absolute_max_correct by auto. cbn [bind].
  set (m := zmax (map (fun x => Qfloor (Qabs x)) (firstn n l))) in *. assert (B : (m =? 0)%Z = false) by lia. rewrite B. now apply multiply_front.
Qed.
Lemma qsum_mul c l : (qsum (map (fun x => x * c) l) == qsum l * c)%Q.
Proof. induction l; cbn [map qsum fold_right]; [ring|]. fold (qsum l). fold (qsum (map (fun x => x * c)%Q l)). rewrite IHl. ring. Qed.
Lemma samples_scale_sum_correct l n target : 1 <= n <= length l -> ~ (qsum (firstn n l) == 0)%Q ->
  exists factor, samples_scale_sum l n target = Some (map (fun x => x * factor)%Q (firstn n l) ++ skipn n l) /\
  (qsum (map (fun x => x * factor)%Q (firstn n l)) == target)%Q.
Proof.
  intros H HN. unfold samples_scale_sum. destruct (f64_sum_correct l n H) as [s [E S]]. rewrite E. cbn [bind].
  assert (B : Qeq_bool s 0 = false) by (destruct (Qeq_bool s 0) eqn:B; auto; apply Qeq_bool_iff in B; exfalso; apply HN; rewrite <- S; exact B). rewrite B.
  exists (target / s)%Q. split; [apply multiply_front; lia|]. rewrite qsum_mul, S. field. exact HN.
Qed.
Lemma set_gain_correct l n amp : n <= length l -> Forall (fun x => Qabs x < inject_Z two32)%Q (firstn n l) -> ~ (amp == 0)%Q ->
  (0 < zmax (map (fun x => Qfloor (Qabs x)) (firstn n l)))%Z ->
  exists factor, samples_set_gain l n amp = Some (map (fun x => x * factor)%Q (firstn n l) ++ skipn n l) /\
  (factor * inject_Z (zmax (map (fun x => Qfloor (Qabs x)) (firstn n l))) == amp)%Q.
Proof.
  intros H F HA HM. unfold samples_set_gain. rewrite samples_absolute_max_correct by auto. cbn [bind].
  set (m := zmax (map (fun x => Qfloor (Qabs x)) (firstn n l))) in *.
  assert (B : Qeq_bool 0 amp = false) by (destruct (Qeq_bool 0 amp) eqn:B; auto; apply Qeq_bool_iff in B; exfalso; apply HA; now symmetry).
  assert (B2 : (0 =? m)%Z = false) by lia. rewrite B, B2. cbn [orb].
  assert (HP : (0 < inject_Z m)%Q) by (now apply inject_pos).
  eexists. split; [exact (inplace_map (fun x => x * (1 + (1 - inject_Z m / amp) / (inject_Z m / amp)))%Q n l H)|]. field. split; [exact HA|lra].
Qed.
Lemma set_gain_unchanged l n amp : n <= length l -> Forall (fun x => Qabs x < inject_Z two32)%Q (firstn n l) ->
  ((amp == 0)%Q \/ zmax (map (fun x => Qfloor (Qabs x)) (firstn n l)) = 0%Z) -> samples_set_gain l n amp = Some l.
Proof.
  intros H F HA. unfold samples_set_gain. rewrite samples_absolute_max_correct by auto. cbn [bind].
  destruct HA as [HA|HA]; [assert (B : Qeq_bool 0 amp = true) by (apply Qeq_bool_iff; now symmetry); rewrite B; reflexivity|].
  rewrite HA, Z.eqb_refl, orb_true_r. reflexivity.
Qed.

(** ** limits *)
Lemma samples_limit_correct l n limit : n <= length l ->
  samples_limit l n limit = Some (map (fun x => if Qlt_bool limit x then limit else x) (firstn n l) ++ skipn n l).
Proof.
  intro H. rewrite <- (inplace_map (fun x => if Qlt_bool limit x then limit else x) n l H). unfold samples_limit. apply for_ext. intros i m.
  destruct (aget m i) as [x|] eqn:E; [|reflexivity]. cbn [bind]. destruct (Qlt_bool limit x); [reflexivity|].
  unfold aget in E. destruct (aset_some m i x (nth_error_lt _ _ _ E)) as [m' Em]. rewrite Em. f_equal. apply nth_error_ext. intro j.
  rewrite (aset_get _ _ _ _ j Em). bd; subst; auto.
Qed.
Definition limited (limit x : Q) : Q := if Qlt_bool x 0 then if Qlt_bool x ((-1) * limit) then ((-1) * limit)%Q else x else if Qlt_bool limit x then limit else x.
Lemma limit_abs_correct l n limit out : n <= length l -> n <= length out -> samples_limit_abs l n limit out = Some (map (limited limit) (firstn n l) ++ skipn n out).
Proof.
  intros H HO. destruct (tab_loop (fun i => x <- aget l i ;; Some (limited limit x)) (fun i v => exists x, nth_error l i = Some x /\ v = limited limit x) n out HO) as [o [E [L1 [G K]]]].
  - intros i Hi. destruct (nth_error_some l i ltac:(lia)) as [x Hx]. unfold aget. rewrite Hx. cbn [bind]. eauto.
  - transitivity (Some o); [rewrite <- E; unfold samples_limit_abs; apply for_ext; intros i m; destruct (aget l i); reflexivity|].
    f_equal. apply nth_error_ext. intro j. destruct (Nat.lt_ge_cases j n) as [J|J].
    + destruct (G j J) as [v [_ [Hv [x [Hx ->]]]]]. rewrite Hv, nth_error_app1 by (rewrite map_length, firstn_length; lia).
      rewrite nth_error_map, nth_error_firstn, Hx by lia. reflexivity.
    + rewrite K, nth_error_app2 by (try rewrite map_length, firstn_length; lia). rewrite map_length, firstn_length, nth_error_skipn. f_equal. lia.
Qed.
Lemma limited_spec limit x : (0 <= limit)%Q -> (Qabs (limited limit x) <= limit)%Q /\ ((Qabs x <= limit)%Q -> limited limit x = x) /\
  ((limit < x)%Q -> limited limit x = limit) /\ ((x < - limit)%Q -> limited limit x == - limit)%Q /\ limited limit (limited limit x) = limited limit x.
Proof.
  intro H0. assert (P1 : (Qabs (limited limit x) <= limit)%Q).
  { unfold limited. apply Qabs_Qle_condition. destruct (Qlt_bool x 0) eqn:B1; [apply Qlt_bool_iff in B1|apply Qlt_bool_false in B1].
    - destruct (Qlt_bool x (-1 * limit)) eqn:B2; [apply Qlt_bool_iff in B2|apply Qlt_bool_false in B2]; lra.
    - destruct (Qlt_bool limit x) eqn:B2; [apply Qlt_bool_iff in B2|apply Qlt_bool_false in B2]; lra. }
  assert (P2 : forall y, (Qabs y <= limit)%Q -> limited limit y = y).
  { intros y Hy. apply Qabs_Qle_condition in Hy. unfold limited. destruct (Qlt_bool y 0) eqn:B1.
    - destruct (Qlt_bool y (-1 * limit)) eqn:B2; auto. apply Qlt_bool_iff in B2. exfalso. lra.
    - destruct (Qlt_bool limit y) eqn:B2; auto. apply Qlt_bool_iff in B2. exfalso. lra. }
  splits; auto.
  - intro H. unfold limited. destruct (Qlt_bool x 0) eqn:B1; [apply Qlt_bool_iff in B1; exfalso; lra|]. destruct (Qlt_bool limit x) eqn:B2; auto. apply Qlt_bool_false in B2. exfalso. lra.
  - intro H. unfold limited. destruct (Qlt_bool x 0) eqn:B1; [|apply Qlt_bool_false in B1; exfalso; lra]. destruct (Qlt_bool x (-1 * limit)) eqn:B2; [ring|]. apply Qlt_bool_false in B2. exfalso. lra.
Qed.

(** ** conversions *)
Lemma to_times_correct l n out : n <= length l -> n <= length out -> Forall (fun x => 0 <= x /\ x + (1 # 2) < inject_Z two32)%Q l ->
  exists out', samples_to_times l n out = Some out' /\ length out' = length out /\ (forall i, n <= i -> nth_error out' i = nth_error out i) /\
  (forall i x, i < n -> nth_error l i = Some x -> exists y, nth_error out' i = Some y /\ rounded x y).
Proof.
  intros H HO F. destruct (tab_loop (fun i => x <- aget l i ;; cheap_round x) (fun i v => forall x, nth_error l i = Some x -> rounded x v) n out HO) as [o [E [L1 [G K]]]].
  - intros i Hi. destruct (nth_error_some l i ltac:(lia)) as [x Hx]. unfold aget. rewrite Hx. cbn [bind].
    assert (W : (0 <= x /\ x + (1 # 2) < inject_Z two32)%Q) by (eapply Forall_forall in F; [exact F|eapply nth_error_In; eauto]).
    destruct (cheap_round_rounded x (proj1 W) (proj2 W)) as [y [E R]]. exists y. split; [exact E|]. intros x0 X. now injection X as <-.
  - exists o. splits; auto.
    + rewrite <- E. unfold samples_to_times. apply for_ext. intros i m. destruct (aget l i); reflexivity.
    + intros i x Hi Hx. destruct (G i Hi) as [v [_ [Hv P]]]. eauto.
Qed.
Lemma to_samples_correct l n out : n <= length l -> n <= length out -> times_to_samples l n out = Some (map inject_Z (firstn n l) ++ skipn n out).
Proof.
  intros H HO. destruct (tab_loop (fun i => x <- aget l i ;; Some (inject_Z x)) (fun i v => exists x, nth_error l i = Some x /\ v = inject_Z x) n out HO) as [o [E [L1 [G K]]]].
  - intros i Hi. destruct (nth_error_some l i ltac:(lia)) as [x Hx]. unfold aget. rewrite Hx. cbn [bind]. eauto.
  - transitivity (Some o); [rewrite <- E; unfold times_to_samples; apply for_ext; intros i m; destruct (aget l i); reflexivity|].
    f_equal. apply nth_error_ext. intro j. destruct (Nat.lt_ge_cases j n) as [J|J].
    + destruct (G j J) as [v [_ [Hv [x [Hx ->]]]]]. rewrite Hv, nth_error_app1 by (rewrite map_length, firstn_length; lia).
      rewrite nth_error_map, nth_error_firstn, Hx by lia. reflexivity.
    + rewrite K, nth_error_app2 by (try rewrite map_length, firstn_length; lia). rewrite map_length, firstn_length, nth_error_skipn. f_equal. lia.
Qed.
Lemma round_trip_times l n out out2 : n <= length l -> n <= length out -> n <= length out2 -> Forall word l ->
  exists mid fin, times_to_samples l n out = Some mid /\ samples_to_times mid n out2 = Some fin /\ firstn n fin = firstn n l.
Proof.
  intros H HO H2 F. rewrite to_samples_correct by auto. set (mid := map inject_Z (firstn n l) ++ skipn n out). exists mid.
  assert (HM : forall i, i < n -> nth_error mid i = option_map inject_Z (nth_error l i)).
  { intros i Hi. unfold mid. rewrite nth_error_app1 by (rewrite map_length, firstn_length; lia). rewrite nth_error_map, nth_error_firstn by lia. reflexivity. }
  destruct (tab_loop (fun i => x <- aget mid i ;; cheap_round x) (fun i v => nth_error l i = Some v) n out2 H2) as [o [E [L1 [G K]]]].
  - intros i Hi. unfold aget. rewrite HM by exact Hi. destruct (nth_error_some l i ltac:(lia)) as [x Hx]. rewrite Hx. cbn [option_map bind].
    assert (W : word x) by (eapply Forall_forall in F; [exact F|eapply nth_error_In; eauto]). exists x. split; [apply cheap_round_int; exact W|reflexivity].
  - exists o. splits; auto.
    + rewrite <- E. unfold samples_to_times. apply for_ext. intros i m. destruct (aget mid i); reflexivity.
    + apply nth_error_ext. intro j. destruct (Nat.lt_ge_cases j n) as [J|J]; [|rewrite !nth_error_firstn_ge by lia; reflexivity].
      rewrite !nth_error_firstn by lia. destruct (G j J) as [v [_ [Hv P]]]. congruence.
Qed.
Lemma multiplications_correct start factor n out : (0 <= start < two32)%Z -> n <= length out ->
  times_multiplications start factor n out = Some (map (fun i => u32 (start * factor ^ Z.of_nat i)) (seq 0 n) ++ skipn n out).
Proof.
  intros HS HO. unfold times_multiplications.
  match goal with |- context [for_ 0 n ?body _] => destruct (for_inv (fun k '(o, s) => s = u32 (start * factor ^ Z.of_nat k) /\ length o = length out /\
     forall j, nth_error o j = if j <? k then Some (u32 (start * factor ^ Z.of_nat j)) else nth_error out j) body 0 n (out, start)) as [[o s] [E [S [L G]]]] end.
  - lia.
  - cbn [Z.of_nat]. rewrite Z.pow_0_r, Z.mul_1_r, u32_small by lia. splits; auto.
  - intros k [o s] Hk [S [L G]]. destruct (aset_some o k s) as [o' Eo]; [lia|]. rewrite Eo. cbn [bind]. eexists (_, _). split; [reflexivity|]. splits.
    + subst s. unfold t_mul. rewrite u32_mul_l. f_equal. rewrite Nat2Z.inj_succ, Z.pow_succ_r by lia. ring.
    + rewrite (aset_length _ _ _ _ Eo). exact L.
    + intro j. rewrite (aset_get _ _ _ _ j Eo), G. subst s. bd; subst; auto; lia.
  - rewrite E. cbn [bind]. f_equal. apply nth_error_ext. intro j. rewrite G. destruct (Nat.ltb_spec j n) as [J|J].
    + rewrite nth_error_app1 by (rewrite map_length, seq_length; lia). rewrite (map_nth_error_seq (fun i => u32 (start * factor ^ Z.of_nat i)) 0 n j J). reflexivity.
    + rewrite nth_error_app2 by (rewrite map_length, seq_length; lia). rewrite map_length, seq_length, nth_error_skipn. f_equal. lia.
Qed.
