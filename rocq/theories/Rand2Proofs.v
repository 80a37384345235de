From Verif Require Import Base MiscModel MiscSpec MiscProofs CombSpec CombProofs RandModel RandSpec RandProofs.
From Coq Require Import QArith Qround Lqa.
Open Scope nat_scope.

Lemma threshold_correct range : (0 < range < two64)%Z -> threshold range = (two64 mod range)%Z.
Proof.
  intro H. unfold threshold. assert (E : u64 (- range) = (two64 - range)%Z).
  { unfold u64. rewrite <- (Z.mod_add (- range) 1 two64) by discriminate. rewrite Z.mod_small; lia. }
  rewrite E. clear E. destruct (Z.leb_spec range (two64 - range)) as [L|L].
  - rewrite u64_small by lia. destruct (Z.leb_spec range (two64 - range - range)) as [L2|L2].
    + rewrite <- (Z.mod_add (two64 - range - range) 2 range) by lia. f_equal. lia.
    + apply (Z.mod_unique_pos _ _ 2); lia.
  - apply (Z.mod_unique_pos _ _ 1); lia.
Qed.

Section Source.
Variable St : Type.
Variable next : St -> Z * St.

Lemma outcome_range range x : (0 < range)%Z -> word64 x -> (0 <= outcome range x < range)%Z.
Proof. intros H Hx. unfold outcome, word64 in *. split; [apply Z.div_pos; [nia|reflexivity]|]. apply Z.div_lt_upper_bound; [reflexivity|nia]. Qed.
Lemma shift_outcome range x : Z.shiftr (x * range) 64 = outcome range x.
Proof. rewrite Z.shiftr_div_pow2 by lia. reflexivity. Qed.

Lemma draws_S n st : draws next (S n) st = (let '(x, st') := next st in let '(l, st'') := draws next n st' in (x :: l, st'')). Proof. reflexivity. Qed.

Lemma accepted_test range x : (0 < range < two64)%Z -> (u64 (x * range) <? threshold range)%Z = negb (accepted range x).
Proof. intro H. rewrite threshold_correct by exact H. unfold accepted, u64. rewrite Z.leb_antisym, negb_involutive. reflexivity. Qed.

(** forward: the first accepted number decides *)
Lemma loop_forward range (H : (0 < range < two64)%Z) : forall rest st x0 xs x st1 st2 fuel,
  xs = x0 :: rest -> draws next (length rest) st = (rest, st1) -> Forall (fun y => accepted range y = false) xs ->
  next st1 = (x, st2) -> accepted range x = true -> S (length rest) < fuel ->
  bounded_loop St next fuel range (threshold range) (x0 * range)%Z st = Some (outcome range x, st2).
Proof.
  induction rest as [|y rest IH]; intros st x0 xs x st1 st2 fuel -> HD HF HN HA Hf; (destruct fuel as [|fuel]; [lia|]); cbn [bounded_loop]; rewrite accepted_test by exact H.
  - apply Forall_cons_iff in HF as [H0 _]. rewrite H0. cbn [negb]. cbn in HD. injection HD as <-. rewrite HN.
    destruct fuel as [|fuel]; [lia|]. cbn [bounded_loop]. rewrite accepted_test, HA by exact H. cbn [negb]. now rewrite shift_outcome.
  - apply Forall_cons_iff in HF as [H0 HF]. rewrite H0. cbn [negb]. cbn [length] in HD. rewrite draws_S in HD.
    destruct (next st) as [z st'] eqn:EN. destruct (draws next (length rest) st') as [l st''] eqn:ED. injection HD as -> -> ->.
    apply (IH st' y (y :: rest) x st1 st2 fuel); auto. cbn [length] in Hf. lia.
Qed.
Lemma bounded_forward range fuel st n xs st1 x st2 : (0 < range < two64)%Z ->
  draws next n st = (xs, st1) -> Forall (fun y => accepted range y = false) xs -> next st1 = (x, st2) -> accepted range x = true -> S n < fuel ->
  random_u64_bounded St next fuel range st = Some (outcome range x, st2).
Proof.
  intros H HD HF HN HA Hf. unfold random_u64_bounded. destruct n as [|n].
  - cbn in HD. injection HD as <- <-. rewrite HN. destruct (u64 (x * range) <? range)%Z eqn:B; [|now rewrite shift_outcome].
    destruct fuel as [|fuel]; [lia|]. cbn [bounded_loop]. rewrite accepted_test, HA by exact H. cbn [negb]. now rewrite shift_outcome.
  - rewrite draws_S in HD. destruct (next st) as [x0 st'] eqn:EN. destruct (draws next n st') as [rest st''] eqn:ED. injection HD as <- <-.
    pose proof HF as HF'. apply Forall_cons_iff in HF' as [H0 _].
    assert (B : (u64 (x0 * range) <? range)%Z = true).
    { assert (T : (u64 (x0 * range) <? threshold range)%Z = true) by (rewrite accepted_test, H0 by exact H; reflexivity). rewrite threshold_correct in T by exact H.
      pose proof (Z.mod_pos_bound two64 range ltac:(lia)). lia. }
    rewrite B. assert (L : length rest = n).
    { clear -ED. revert st' rest st'' ED. induction n; intros st' rest st'' ED; cbn in ED; [injection ED as <- _; reflexivity|].
      destruct (next st') as [z s]. destruct (draws next n s) as [l s'] eqn:E. injection ED as <- _. cbn. f_equal. eapply IHn; eauto. }
    apply (loop_forward range H rest st' x0 (x0 :: rest) x st'' st2 fuel); auto; rewrite L; auto; lia.
Qed.
(** backward: every result comes from an accepted number after rejected ones *)
Lemma loop_backward range (H : (0 < range < two64)%Z) : forall fuel st x0 r st2,
  bounded_loop St next fuel range (threshold range) (x0 * range)%Z st = Some (r, st2) ->
  (accepted range x0 = true /\ r = outcome range x0 /\ st2 = st) \/
  (accepted range x0 = false /\ exists n xs st1 x, draws next n st = (xs, st1) /\ Forall (fun y => accepted range y = false) xs /\ next st1 = (x, st2) /\ accepted range x = true /\ r = outcome range x).
Proof.
  induction fuel as [|fuel IH]; intros st x0 r st2 E; [discriminate|]. cbn [bounded_loop] in E. rewrite accepted_test in E by exact H.
  destruct (accepted range x0) eqn:A; cbn [negb] in E.
  - left. rewrite shift_outcome in E. injection E as <- <-. auto.
  - right. split; [reflexivity|]. destruct (next st) as [y st'] eqn:EN. destruct (IH _ _ _ _ E) as [[A1 [A2 A3]]|[A1 [n [xs [st1 [x [X1 [X2 [X3 [X4 X5]]]]]]]]]].
    + exists 0, [], st, y. subst. splits; auto. 
    + exists (S n), (y :: xs), st1, x. rewrite draws_S, EN, X1. splits; auto.
Qed.
Lemma bounded_backward (words : forall st, word64 (fst (next st))) range fuel st r st2 : (0 < range < two64)%Z -> random_u64_bounded St next fuel range st = Some (r, st2) ->
  exists n xs st1 x, draws next n st = (xs, st1) /\ Forall (fun y => accepted range y = false) xs /\ next st1 = (x, st2) /\ accepted range x = true /\ r = outcome range x /\ (0 <= r < range)%Z.
Proof.
  intros H E. unfold random_u64_bounded in E. destruct (next st) as [x0 st'] eqn:EN. destruct (Z.ltb_spec (u64 (x0 * range)) range) as [B|B].
  - destruct (loop_backward range H _ _ _ _ _ E) as [[A1 [A2 A3]]|[A1 [n [xs [st1 [x [X1 [X2 [X3 [X4 X5]]]]]]]]]].
    + exists 0, [], st, x0. subst. splits; auto; apply outcome_range; try lia; pose proof (words st) as W; rewrite EN in W; exact W.
    + exists (S n), (x0 :: xs), st1, x. rewrite draws_S, EN, X1. subst r. splits; auto; apply outcome_range; try lia; pose proof (words st1) as W; rewrite X3 in W; exact W.
  - injection E as <- <-. rewrite shift_outcome. exists 0, [], st, x0. 
    assert (A : accepted range x0 = true).
    { unfold accepted. unfold u64 in B. pose proof (Z.mod_pos_bound two64 range ltac:(lia)). lia. }
    splits; auto; apply outcome_range; try lia; pose proof (words st) as W; rewrite EN in W; exact W.
Qed.
End Source.

(** ** uniformity *)
Lemma uniform_general M r v : (0 < r < M)%Z -> (0 <= v < r)%Z ->
  Z.of_nat (length (filter (fun x => ((M mod r <=? (x * r) mod M) && (x * r / M =? v))%Z) (below M))) = (M / r)%Z.
Proof.
  intros Hr Hv. set (t := (M mod r)%Z). set (q := (M / r)%Z). assert (HM : M = (r * q + t)%Z) by (apply Z.div_mod; lia).
  assert (Ht : (0 <= t < r)%Z) by (apply Z.mod_pos_bound; lia). assert (Hq : (0 <= q)%Z) by (apply Z.div_pos; lia). clearbody t q.
  unfold below. rewrite filter_map_length. set (A := (v * M + t)%Z). set (lo := ((A + r - 1) / r)%Z).
  assert (HA : (0 <= A)%Z) by (unfold A; nia).
  assert (Hlo : forall x, (A <= x * r <-> lo <= x)%Z).
  { intro x. unfold lo. pose proof (Z.div_mod (A + r - 1) r ltac:(lia)) as D. pose proof (Z.mod_pos_bound (A + r - 1) r ltac:(lia)) as D2.
    set (l := ((A + r - 1) / r)%Z) in *. clearbody l. set (m := ((A + r - 1) mod r)%Z) in *. clearbody m. clear -D D2 Hr. split; intro; nia. }
  assert (L0 : (0 <= lo)%Z) by (apply Z.div_pos; lia).
  assert (HH : (lo + q <= M)%Z).
  { assert (N : ~ (A <= (lo - 1) * r)%Z) by (rewrite Hlo; lia).
    assert (N2 : ((lo - 1 + q) * r < (v + 1) * M)%Z) by (unfold A in N; rewrite Z.mul_add_distr_r; lia).
    assert (N3 : ((v + 1) * M <= r * M)%Z) by (apply Z.mul_le_mono_nonneg_r; lia).
    assert (N4 : (lo - 1 + q < M)%Z) by (apply (Z.mul_lt_mono_pos_r r); lia). lia. }
  rewrite (filter_interval _ _ (Z.to_nat lo) (Z.to_nat (lo + q))).
  - lia.
  - lia.
  - intros x Hx. rewrite andb_true_iff, Z.leb_le, Z.eqb_eq. set (X := Z.of_nat x). assert (HX : (0 <= X < M)%Z) by lia.
    pose proof (Z.div_mod (X * r) M ltac:(lia)) as D. pose proof (Z.mod_pos_bound (X * r) M ltac:(lia)) as D2.
    set (d := (X * r / M)%Z) in *. set (m := ((X * r) mod M)%Z) in *. clearbody d m.
    assert (E1 : (t <= m /\ d = v <-> A <= X * r /\ X * r < A + q * r)%Z).
    { unfold A. replace (v * M + t + q * r)%Z with (v * M + M)%Z by lia. rewrite D. split; [intros [? ->]; lia|]. intros [? ?]. assert (d = v) by nia. subst. lia. }
    rewrite E1. assert (E2 : (X * r < A + q * r <-> ~ A <= (X - q) * r)%Z) by lia. rewrite E2, !Hlo. lia.
Qed.
Lemma uniform range v : (0 < range < two64)%Z -> (0 <= v < range)%Z ->
  Z.of_nat (length (filter (fun x => accepted range x && (outcome range x =? v)%Z) (below two64))) = (two64 / range)%Z.
Proof. exact (uniform_general two64 range v). Qed.
Lemma more_than_half M r : (0 < r < M)%Z -> (M < 2 * (r * (M / r)))%Z.
Proof.
  intro H. pose proof (Z.div_mod M r ltac:(lia)) as D. pose proof (Z.mod_pos_bound M r ltac:(lia)) as D2. assert (1 <= M / r)%Z by (apply Z.div_le_lower_bound; lia).
  set (q := (M / r)%Z) in *. clearbody q. nia.
Qed.

(** ** floats *)
Lemma shift11_range a : word64 a -> (0 <= Z.shiftr a 11 < 2 ^ 53)%Z.
Proof. intro H. unfold word64 in H. rewrite Z.shiftr_div_pow2 by lia. split; [apply Z.div_pos; lia|]. apply Z.div_lt_upper_bound; [lia|]. unfold two64 in H. lia. Qed.
Lemma f64_exact a : word64 a -> exists k, (0 <= k < 2 ^ 53)%Z /\ (f64_from_u64 a == inject_Z k / inject_Z (2 ^ 53))%Q.
Proof. intro H. exists (Z.shiftr a 11). split; [now apply shift11_range|]. unfold f64_from_u64, Qdiv. apply Qmult_comp; reflexivity. Qed.
Lemma f64_unit a : word64 a -> (0 <= f64_from_u64 a < 1)%Q.
Proof.
  intro H. destruct (f64_exact a H) as [k [[K0 K1] ->]]. rewrite Zle_Qle in K0. rewrite Zlt_Qlt in K1. assert (P : (0 < inject_Z (2 ^ 53))%Q) by reflexivity.
  change (inject_Z 0) with 0%Q in K0. split.
  - apply Qle_shift_div_l; [exact P|]. lra.
  - apply Qlt_shift_div_r; [exact P|]. lra.
Qed.
Lemma f64_fair_general M k n q : (0 < n)%Z -> M = (n * q)%Z -> (0 <= k < q)%Z -> Z.of_nat (length (filter (fun a => (a / n =? k)%Z) (below M))) = n.
Proof.
  intros Hn -> Hk. unfold below. rewrite filter_map_length. rewrite (filter_interval _ _ (Z.to_nat (k * n)) (Z.to_nat ((k + 1) * n))); [nia|nia|].
  intros x Hx. rewrite Z.eqb_eq. pose proof (Z.div_mod (Z.of_nat x) n ltac:(lia)) as D. pose proof (Z.mod_pos_bound (Z.of_nat x) n ltac:(lia)) as D2.
  set (d := (Z.of_nat x / n)%Z) in *. set (m := (Z.of_nat x mod n)%Z) in *. clearbody d m. split; intro; nia.
Qed.
Lemma f64_fair k : (0 <= k < 2 ^ 53)%Z -> Z.of_nat (length (filter (fun a => (Z.shiftr a 11 =? k)%Z) (below two64))) = 2048%Z.
Proof.
  intro H. rewrite (filter_ext _ (fun a => (a / 2048 =? k)%Z)) by (intro a; rewrite Z.shiftr_div_pow2 by lia; reflexivity).
  apply (f64_fair_general two64 k 2048 (2 ^ 53)); [lia|reflexivity|exact H].
Qed.
Lemma word_u64_out s : word64 (fst (random_u64 s)).
Proof. destruct s as [[[s0 s1] s2] s3]. cbn [random_u64 fst]. apply word_u64. Qed.
Lemma word_plus_out s : word64 (fst (random_u64_plus s)).
Proof. destruct s as [[[s0 s1] s2] s3]. cbn [random_u64_plus fst]. apply word_u64. Qed.
Lemma random_f64_range s : (0 <= fst (random_f64 s) < 1)%Q.
Proof. unfold random_f64. pose proof (word_u64_out s) as W. destruct (random_u64 s) as [a s']. cbn [fst] in *. now apply f64_unit. Qed.
Lemma random_bounded_range range s : (0 < range)%Q -> (0 <= fst (random_f64_bounded range s) < range)%Q.
Proof.
  intro HR. unfold random_f64_bounded. pose proof (word_plus_out s) as W. destruct (random_u64_plus s) as [a s']. cbn [fst] in *. destruct (f64_unit a W) as [H1 H2]. split.
  - apply Qmult_le_0_compat; lra.
  - rewrite <- (Qmult_1_r range) at 2. apply Qmult_lt_l; auto.
Qed.
Lemma random_1to1_range s : (-1 <= fst (random_f64_1to1 s) < 1)%Q.
Proof.
  unfold random_f64_1to1. pose proof (random_bounded_range 2 s ltac:(reflexivity)) as H. destruct (random_f64_bounded 2 s) as [x s']. cbn [fst] in *. lra.
Qed.
Lemma random_1to1_exact s : exists k, (0 <= k < 2 ^ 53)%Z /\ (fst (random_f64_1to1 s) == inject_Z (k - 2 ^ 52) / inject_Z (2 ^ 52))%Q.
Proof.
  unfold random_f64_1to1, random_f64_bounded. pose proof (word_plus_out s) as W. destruct (random_u64_plus s) as [a s']. cbn [fst] in *. destruct (f64_exact a W) as [k [K E]]. exists k. split; [exact K|].
  rewrite E. unfold Zminus. rewrite inject_Z_plus. change (inject_Z (2 ^ 53)) with (inject_Z 2 * inject_Z (2 ^ 52))%Q. change (inject_Z (- 2 ^ 52)) with (- inject_Z (2 ^ 52))%Q.
  assert (P : (0 < inject_Z (2 ^ 52))%Q) by reflexivity. set (T := inject_Z (2 ^ 52)) in *. clearbody T. change (inject_Z 2) with 2%Q. field. lra.
Qed.

(** ** arrays *)
Section Arrays.
Variables (St V : Type).
Variable draw : St -> option (V * St).
Fixpoint odraws (n : nat) (st : St) : option (list V * St) :=
  match n with
  | O => Some ([], st)
  | S n => '(x, st) <- draw st ;; '(l, st) <- odraws n st ;; Some (x :: l, st)
  end.
Lemma odraws_length n : forall st l st', odraws n st = Some (l, st') -> length l = n.
Proof.
  induction n; intros st l st' E; cbn in E; [injection E as <- _; reflexivity|]. destruct (draw st) as [[x s]|]; [|discriminate]. cbn [bind] in E.
  destruct (odraws n s) as [[k s2]|] eqn:EO; [|discriminate]. cbn [bind] in E. injection E as <- _. cbn. f_equal. eauto.
Qed.
Lemma odraws_app n m : forall st, odraws (n + m) st = ('(a, st) <- odraws n st ;; '(b, st) <- odraws m st ;; Some (a ++ b, st)).
Proof.
  induction n; intro st; cbn [odraws Nat.add]; [cbn [bind]; destruct (odraws m st) as [[b s]|]; reflexivity|].
  destruct (draw st) as [[x s]|]; [|reflexivity]. cbn [bind]. rewrite IHn. destruct (odraws n s) as [[a s2]|]; [|reflexivity]. cbn [bind]. destruct (odraws m s2) as [[b s3]|]; reflexivity.
Qed.
Lemma random_array_from n : forall i out st, i + n <= length out ->
  for_from i n (fun i '(out, st) => '(x, st) <- draw st ;; out <- aset out i x ;; Some (out, st)) (out, st) =
  ('(l, st) <- odraws n st ;; Some (firstn i out ++ l ++ skipn (i + n) out, st)).
Proof.
  induction n; intros i out st H; cbn [for_from odraws].
  - cbn [bind]. rewrite Nat.add_0_r. cbn [app]. now rewrite firstn_skipn.
  - destruct (draw st) as [[x s]|]; [|reflexivity]. cbn [bind]. destruct (aset_some out i x ltac:(lia)) as [o Eo]. rewrite Eo. cbn [bind].
    pose proof (aset_length _ _ _ _ Eo) as Lo. rewrite IHn by lia. destruct (odraws n s) as [[l s2]|]; [|reflexivity]. cbn [bind]. f_equal. f_equal.
    assert (F : firstn (S i) o = firstn i out ++ [x]).
    { apply nth_error_ext. intro j. destruct (Nat.lt_trichotomy j i) as [J|[J|J]].
      - rewrite nth_error_firstn, nth_error_app1, nth_error_firstn, (aset_get _ _ _ _ _ Eo) by (try rewrite firstn_length; lia). bd; auto; lia.
      - subst j. rewrite nth_error_firstn, nth_error_app2, (aset_get _ _ _ _ _ Eo), Nat.eqb_refl by (try rewrite firstn_length; lia).
        rewrite firstn_length, Nat.min_l, Nat.sub_diag by lia. reflexivity.
      - rewrite nth_error_firstn_ge by lia. symmetry. apply nth_error_None. rewrite app_length, firstn_length. cbn. lia. }
    assert (K : skipn (S i + n) o = skipn (i + S n) out).
    { apply nth_error_ext. intro j. rewrite !nth_error_skipn, (aset_get _ _ _ _ _ Eo). bd; try lia. f_equal. lia. }
    rewrite F, K, <- app_assoc. reflexivity.
Qed.
Lemma random_array_correct n out st : n <= length out -> random_array draw st n out = ('(l, st) <- odraws n st ;; Some (l ++ skipn n out, st)).
Proof. intro H. unfold random_array, for_. rewrite Nat.sub_0_r. exact (random_array_from n 0 out st H). Qed.
Lemma random_array_split n m out st : n + m <= length out ->
  random_array draw st (n + m) out = ('(a, st) <- random_array draw st n (firstn n out) ;; '(b, st) <- random_array draw st m (skipn n out) ;; Some (a ++ b, st)).
Proof.
  intro H. rewrite random_array_correct by lia. rewrite (random_array_correct n) by (rewrite firstn_length; lia). rewrite odraws_app.
  destruct (odraws n st) as [[a s]|]; [|reflexivity]. cbn [bind]. rewrite random_array_correct by (rewrite skipn_length; lia).
  destruct (odraws m s) as [[b s2]|]; [|reflexivity]. cbn [bind]. f_equal. f_equal. rewrite (skipn_all2 (firstn n out)) by (rewrite firstn_length; lia). rewrite app_nil_r, <- app_assoc. f_equal. f_equal.
  apply nth_error_ext. intro j. rewrite !nth_error_skipn. f_equal. lia.
Qed.
End Arrays.

(** ** normal distribution *)
Lemma sum_wrap l : forall s, (0 <= s)%Z -> Forall (fun x => 0 <= x)%Z l -> (s + zsum l < two32)%Z -> fold_left (fun s x => u32 (s + x)) l s = (s + zsum l)%Z.
Proof.
  induction l as [|x l IH]; intros s Hs HF H; cbn [fold_left zsum fold_right] in *; [lia|]. fold (zsum l) in *. apply Forall_cons_iff in HF as [Hx HF].
  assert (Z0 : (0 <= zsum l)%Z) by (clear -HF; induction HF; cbn; [lia|unfold zsum in *; lia]).
  rewrite u32_small by lia. rewrite IH by (auto; lia). lia.
Qed.
Lemma zsum_between l lo hi : Forall (fun x => lo <= x <= hi)%Z l -> (lo * Z.of_nat (length l) <= zsum l <= hi * Z.of_nat (length l))%Z.
Proof. induction 1 as [|x l Hx _ IH]; [cbn; lia|]. cbn [length zsum fold_right]. fold (zsum l). lia. Qed.
Lemma normal_random_range {St} (draw : Z -> St -> option (Z * St)) min max st r st' :
  (forall range st x st', draw range st = Some (x, st') -> (0 <= x < range \/ x = 0)%Z) ->
  (0 <= min <= max)%Z -> (32 * max < two32)%Z -> normal_random draw min max st = Some (r, st') -> (min <= r <= max)%Z.
Proof.
  intros HD HM HW E. unfold normal_random in E. rewrite random_array_correct in E by reflexivity.
  destruct (odraws St Z (draw (u32 (max - min))) 32 st) as [[l s]|] eqn:EO; [|discriminate]. cbn [bind] in E.
  assert (HL : length l = 32) by (eapply odraws_length; eauto). rewrite (skipn_all2 (repeat 0%Z 32)) in E by reflexivity. rewrite app_nil_r in E.
  rewrite u32_small in EO by lia.
  assert (HF : Forall (fun x => 0 <= x <= max - min)%Z l).
  { clear -EO HD HM. revert l s EO. generalize 32. intro n. revert st. induction n; intros st l s EO; cbn in EO; [injection EO as <- _; constructor|].
    destruct (draw (max - min)%Z st) as [[x s1]|] eqn:E; [|discriminate]. cbn [bind] in EO. destruct (odraws St Z (draw (max - min)%Z) n s1) as [[k s2]|] eqn:E2; [|discriminate]. cbn [bind] in EO.
    injection EO as <- <-. constructor; [|eapply IHn; eauto]. apply HD in E. lia. }
  assert (EM : map (fun x => u32 (x + min)) l = map (fun x => x + min)%Z l).
  { apply map_ext_in. intros x Hx. eapply Forall_forall in HF; [|exact Hx]. apply u32_small. lia. }
  rewrite EM in E. set (k := map (fun x => x + min)%Z l) in *.
  assert (HK : Forall (fun x => min <= x <= max)%Z k) by (unfold k; apply Forall_map; eapply Forall_impl; [|exact HF]; cbn; intros; lia).
  assert (LK : length k = 32) by (unfold k; rewrite map_length; exact HL).
  pose proof (zsum_between k min max HK) as ZB. rewrite LK in ZB. change (Z.of_nat 32) with 32%Z in ZB.
  rewrite sum_wrap in E by (lia || (eapply Forall_impl; [|exact HK]; cbn; intros; lia)). rewrite Z.add_0_l in E.
  unfold time_of in E. set (S := zsum k) in *. clearbody S.
  assert (QE : Qfloor (inject_Z S / inject_Z 32) = (S / 32)%Z) by (symmetry; apply Zdiv_Qdiv).
  rewrite QE in E.
  assert (B1 : Qle_bool 0 (inject_Z S / inject_Z 32) = true).
  { apply Qle_bool_iff. apply Qle_shift_div_l; [reflexivity|]. rewrite Qmult_0_l. change 0%Q with (inject_Z 0). rewrite <- Zle_Qle. lia. }
  rewrite B1 in E. destruct (S / 32 <? two32)%Z; [|discriminate]. cbn [bind] in E. injection E as <- _.
  split; [apply Z.div_le_lower_bound; lia|apply Z.div_le_upper_bound; lia].
Qed.
