(** Uniformity of single numbers and separation of seeds *)
From Verif Require Import Base RandModel RandSpec RandProofs.
From Coq Require Import QArith.
Open Scope Z_scope.

Lemma mul_inv x c c' : word64 x -> (c * c') mod two64 = 1 -> u64 (c' * u64 (c * x)) = x.
Proof.
  intros Hx HC. unfold u64. rewrite Zmult_mod_idemp_r, Z.mul_assoc, (Z.mul_comm c' c), Z.mul_mod, HC, Z.mul_1_l, Z.mod_mod by discriminate. apply Z.mod_small. exact Hx.
Qed.
(** the second word of the states that yield the number [y] *)
Definition second_word (y : Z) : Z := u64 (14757395258967641293 * rotl (u64 (10248191152060862009 * y)) 57).
Lemma second_word_word y : word64 (second_word y). Proof. apply word_u64. Qed.
Lemma second_word_of y : word64 y -> u64 (9 * rotl (u64 (5 * second_word y)) 7) = y.
Proof.
  intros Hy. unfold second_word. rewrite (mul_inv _ 14757395258967641293 5) by first [reflexivity | apply word_rotl; [apply word_u64|lia]].
  rewrite (rotl_rotl _ 57 7) by first [apply word_u64 | lia]. apply mul_inv; [exact Hy|reflexivity].
Qed.
Lemma of_second_word x : word64 x -> second_word (u64 (9 * rotl (u64 (5 * x)) 7)) = x.
Proof.
  intros Hx. unfold second_word. rewrite (mul_inv _ 9 10248191152060862009) by first [reflexivity | apply word_rotl; [apply word_u64|lia]].
  rewrite (rotl_rotl _ 7 57) by first [apply word_u64 | lia]. apply mul_inv; [exact Hx|reflexivity].
Qed.
Lemma u64_uniform s0 s2 s3 y : word64 y -> exists s1, word64 s1 /\ fst (random_u64 (s0, s1, s2, s3)) = y /\ forall x, word64 x -> fst (random_u64 (s0, x, s2, s3)) = y -> x = s1.
Proof.
  intros Hy. exists (second_word y). split; [apply second_word_word|]. split; [exact (second_word_of y Hy)|].
  intros x Hx E. cbn [random_u64 fst] in E. rewrite <- E. symmetry. apply of_second_word. exact Hx.
Qed.
Lemma plus_uniform s1 s2 s3 y : word64 y -> exists s0, word64 s0 /\ fst (random_u64_plus (s0, s1, s2, s3)) = y /\ forall x, word64 x -> fst (random_u64_plus (x, s1, s2, s3)) = y -> x = s0.
Proof.
  intros Hy. exists (u64 (y - s3)). split; [apply word_u64|]. cbn [random_u64_plus fst]. split.
  - unfold u64. rewrite Zplus_mod_idemp_l. replace (y - s3 + s3) with y by lia. apply Z.mod_small. exact Hy.
  - intros x Hx E. rewrite <- E. unfold u64. rewrite Zminus_mod_idemp_l. replace (x + s3 - s3) with x by lia. symmetry. apply Z.mod_small. exact Hx.
Qed.

(** the 2048 numbers with the upper 53 bits [k] *)
Definition with_upper (k : Z) : list Z := map (fun i => k * 2048 + Z.of_nat i) (seq 0 2048).
Lemma with_upper_in k y : In y (with_upper k) <-> y / 2048 = k.
Proof.
  unfold with_upper. rewrite in_map_iff. split.
  - intros (i & <- & Hi). apply in_seq in Hi. rewrite Z.mul_comm, (Z.add_comm _ (Z.of_nat i)), Z.mul_comm, Z.div_add by lia. rewrite Z.div_small by lia. lia.
  - intros <-. exists (Z.to_nat (y mod 2048)). pose proof (Z.mod_pos_bound y 2048 ltac:(lia)). split; [rewrite Z2Nat.id by lia; pose proof (Z.div_mod y 2048); lia|]. apply in_seq. lia.
Qed.
Lemma with_upper_nodup k : NoDup (with_upper k).
Proof.
  unfold with_upper. apply FinFun.Injective_map_NoDup; [|apply seq_NoDup]. intros i j E. lia.
Qed.
Lemma f64_eq a k : word64 a -> (f64_from_u64 a == inject_Z k * (1 # 2 ^ 53))%Q <-> a / 2048 = k.
Proof.
  intros Ha. unfold f64_from_u64. rewrite Z.shiftr_div_pow2 by lia. change (2 ^ 11) with 2048. split.
  - intros E. apply Qmult_inj_r in E; [|discriminate]. unfold inject_Z, Qeq in E. cbn in E. lia.
  - intros ->. reflexivity.
Qed.
Lemma f64_uniform s0 s2 s3 k : 0 <= k < 2 ^ 53 ->
  exists l, length l = 2048%nat /\ NoDup l /\ forall s1, word64 s1 -> In s1 l <-> (fst (random_f64 (s0, s1, s2, s3)) == inject_Z k * (1 # 2 ^ 53))%Q.
Proof.
  intros Hk. exists (map second_word (with_upper k)). split; [unfold with_upper; rewrite !map_length, seq_length; reflexivity|].
  assert (Hw : forall y, In y (with_upper k) -> word64 y). { intros y Hy. apply with_upper_in in Hy. unfold word64, two64. pose proof (Z.div_mod y 2048 ltac:(lia)). pose proof (Z.mod_pos_bound y 2048 ltac:(lia)). lia. }
  split.
  - pose proof (with_upper_nodup k) as Hn. revert Hn Hw. induction (with_upper k) as [|y l IH]; intros Hn Hw; [constructor|]. inversion Hn as [|y' l' Hy Hn']; subst. cbn [map]. constructor.
    + intros Hi. apply in_map_iff in Hi. destruct Hi as (z & Ez & Hz). apply Hy. assert (y = z); [|subst; exact Hz].
      rewrite <- (second_word_of y), <- (second_word_of z), Ez; auto; apply Hw; [right; exact Hz|left; reflexivity].
    + apply IH; auto. intros z Hz. apply Hw. right. exact Hz.
  - intros s1 H1. change (fst (random_f64 (s0, s1, s2, s3))) with (f64_from_u64 (u64 (9 * rotl (u64 (5 * s1)) 7))). rewrite f64_eq by apply word_u64. rewrite in_map_iff. rewrite <- with_upper_in. split.
    + intros (y & <- & Hy). rewrite second_word_of; auto.
    + intros Hy. exists (u64 (9 * rotl (u64 (5 * s1)) 7)). split; [apply of_second_word; exact H1|exact Hy].
Qed.

Lemma u64_add_inj a b c : word64 a -> word64 b -> u64 (a + c) = u64 (b + c) -> a = b.
Proof.
  intros Ha Hb E. assert (G : forall z, word64 z -> u64 (u64 (z + c) - c) = z). { intros z Hz. unfold u64. rewrite Zminus_mod_idemp_l. replace (z + c - c) with z by lia. apply Z.mod_small. exact Hz. }
  rewrite <- (G a Ha), <- (G b Hb), E. reflexivity.
Qed.
Lemma seeds_differ a b : word64 a -> word64 b -> a <> b ->
  let '(a0, a1, a2, a3) := random_state_new a in let '(b0, b1, b2, b3) := random_state_new b in a0 <> b0 /\ a1 <> b1 /\ a2 <> b2 /\ a3 <> b3.
Proof.
  intros Ha Hb Hn. unfold random_state_new.
  assert (G : forall x y, word64 x -> word64 y -> x <> y -> u64 (x + 11400714819323198485) <> u64 (y + 11400714819323198485)) by (intros x y Hx Hy Hxy E; apply Hxy; exact (u64_add_inj _ _ _ Hx Hy E)).
  assert (S' : forall x y, word64 x -> word64 y -> x <> y -> splitmix x <> splitmix y) by (intros x y Hx Hy Hxy E; apply Hxy; exact (splitmix_inj _ _ Hx Hy E)).
  repeat split; apply S'; try apply word_u64; repeat (apply G; try apply word_u64; auto).
Qed.
Lemma words_differ seed : let '(a0, a1, a2, a3) := random_state_new seed in NoDup [a0; a1; a2; a3].
Proof.
  unfold random_state_new. set (i := 11400714819323198485). set (x := u64 (seed + i)). assert (Hx : word64 x) by apply word_u64. clearbody x.
  assert (S' : forall x y, word64 x -> word64 y -> x <> y -> splitmix x <> splitmix y) by (intros u v Hu Hv Huv E; apply Huv; exact (splitmix_inj _ _ Hu Hv E)).
  assert (N1 : forall y, word64 y -> y <> u64 (y + i) /\ y <> u64 (u64 (y + i) + i) /\ y <> u64 (u64 (u64 (y + i) + i) + i)).
  { intros y Hy. unfold u64. rewrite ?Zplus_mod_idemp_l. unfold word64 in Hy.
    assert (G : forall c, 0 < c < two64 -> y <> (y + c) mod two64). { intros c Hc E. unfold two64 in *. Z.to_euclidean_division_equations. lia. }
    repeat split.
    - apply G. unfold i, two64. lia.
    - replace ((y + i + i) mod two64) with ((y + (i + i) mod two64) mod two64) by (rewrite Zplus_mod_idemp_r; f_equal; lia). apply G. vm_compute. split; reflexivity.
    - replace ((y + i + i + i) mod two64) with ((y + (i + i + i) mod two64) mod two64) by (rewrite Zplus_mod_idemp_r; f_equal; lia). apply G. vm_compute. split; reflexivity. }
  assert (W : forall z, word64 (u64 z)) by (intros; apply word_u64).
  destruct (N1 x Hx) as (P1 & P2 & P3). destruct (N1 (u64 (x + i)) (W _)) as (P4 & P5 & _). destruct (N1 (u64 (u64 (x + i) + i)) (W _)) as (P6 & _).
  apply (S' _ _ Hx (W _)) in P1. apply (S' _ _ Hx (W _)) in P2. apply (S' _ _ Hx (W _)) in P3.
  apply (S' _ _ (W _) (W _)) in P4. apply (S' _ _ (W _) (W _)) in P5. apply (S' _ _ (W _) (W _)) in P6.
  repeat (apply NoDup_cons; [cbn [In]; intros K; repeat (destruct K as [K|K]; [congruence|]); exact K|]). apply NoDup_nil.
Qed.

(** the state is determined by four consecutive numbers *)
Lemma lxor_cancel_l c a b : Z.lxor c a = Z.lxor c b -> a = b.
Proof. intros E. rewrite <- (Z.lxor_0_l a), <- (Z.lxor_0_l b), <- (Z.lxor_nilpotent c), !Z.lxor_assoc, E. reflexivity. Qed.
Lemma lxor_cancel_r c a b : Z.lxor a c = Z.lxor b c -> a = b.
Proof. rewrite !(Z.lxor_comm _ c). apply lxor_cancel_l. Qed.
Lemma u64_second s0 s1 s2 s3 t0 t1 t2 t3 : valid_state (s0, s1, s2, s3) -> valid_state (t0, t1, t2, t3) ->
  fst (random_u64 (s0, s1, s2, s3)) = fst (random_u64 (t0, t1, t2, t3)) -> s1 = t1.
Proof.
  intros (_ & Hs & _) (_ & Ht & _) E. cbn [random_u64 fst] in E. rewrite <- (of_second_word s1 Hs), <- (of_second_word t1 Ht), E. reflexivity.
Qed.
(** the second words of four consecutive states *)
Lemma second_words_determine s t : valid_state s -> valid_state t ->
  let w := fun u : rstate => let '(_, x, _, _) := u in x in
  w s = w t -> w (state_step s) = w (state_step t) -> w (state_step (state_step s)) = w (state_step (state_step t)) ->
  w (state_step (state_step (state_step s))) = w (state_step (state_step (state_step t))) -> s = t.
Proof.
  destruct s as [[[s0 s1] s2] s3]. destruct t as [[[t0 t1] t2] t3]. intros (S0 & S1 & S2 & S3) (T0 & T1 & T2 & T3). cbn [state_step].
  intros E0. subst t1. intros E1. apply lxor_cancel_l in E1. rewrite <- E1. intros E2. apply lxor_cancel_l in E2.
  apply lxor_cancel_l in E2. rewrite <- E2. intros E3. repeat apply lxor_cancel_l in E3. apply lxor_cancel_r in E3.
  assert (E4 : Z.lxor s3 s1 = Z.lxor t3 s1).
  { rewrite <- (rotl_rotl (Z.lxor s3 s1) 45 19), <- (rotl_rotl (Z.lxor t3 s1) 45 19), E3 by first [apply word_lxor; assumption | lia]. reflexivity. }
  rewrite <- E4 in E2. apply lxor_cancel_r in E2. apply lxor_cancel_r in E4. subst t0 t3. apply lxor_cancel_r in E1. subst t2. reflexivity.
Qed.
Lemma state_determined s t : valid_state s -> valid_state t -> fst (draws random_u64 4 s) = fst (draws random_u64 4 t) -> s = t.
Proof.
  intros Hs Ht E. pose proof (step_valid s Hs) as Hs1. pose proof (step_valid _ Hs1) as Hs2. pose proof (step_valid _ Hs2) as Hs3.
  pose proof (step_valid t Ht) as Ht1. pose proof (step_valid _ Ht1) as Ht2. pose proof (step_valid _ Ht2) as Ht3.
  assert (D : forall u, fst (draws random_u64 4 u) = [fst (random_u64 u); fst (random_u64 (state_step u)); fst (random_u64 (state_step (state_step u))); fst (random_u64 (state_step (state_step (state_step u))))]).
  { intros [[[u0 u1] u2] u3]. reflexivity. }
  rewrite !D in E. injection E as E0 E1 E2 E3.
  assert (U : forall u v, valid_state u -> valid_state v -> fst (random_u64 u) = fst (random_u64 v) -> (let '(_, x, _, _) := u in x) = (let '(_, x, _, _) := v in x)).
  { intros [[[u0 u1] u2] u3] [[[v0 v1] v2] v3] Hu Hv E. exact (u64_second _ _ _ _ _ _ _ _ Hu Hv E). }
  apply (second_words_determine s t Hs Ht); apply U; assumption.
Qed.
Lemma seeds_first_four a b : word64 a -> word64 b -> a <> b -> fst (draws random_u64 4 (random_state_new a)) <> fst (draws random_u64 4 (random_state_new b)).
Proof.
  intros Ha Hb Hn E. apply state_determined in E; try apply state_new_valid.
  pose proof (seeds_differ a b Ha Hb Hn) as D. destruct (random_state_new a) as [[[a0 a1] a2] a3], (random_state_new b) as [[[b0 b1] b2] b3]. injection E as -> -> -> ->. destruct D as (D & _). apply D. reflexivity.
Qed.
Lemma Nat_iter_succ_r {A : Type} n (f : A -> A) x : Nat.iter (S n) f x = Nat.iter n f (f x).
Proof. induction n as [|n IH]; [reflexivity|]. cbn [Nat.iter] in *. change (f (Nat.iter (S n) f x) = f (Nat.iter n f (f x))). f_equal. exact IH. Qed.
Lemma draws_snd n s : snd (draws random_u64 n s) = Nat.iter n state_step s.
Proof.
  revert s. induction n as [|n IH]; intros s; [reflexivity|]. cbn [draws]. destruct s as [[[s0 s1] s2] s3]. cbn [random_u64]. specialize (IH (state_step (s0, s1, s2, s3))).
  destruct (draws random_u64 n (state_step (s0, s1, s2, s3))) as [l st]. cbn [snd] in *. rewrite IH. symmetry. apply (Nat_iter_succ_r n state_step).
Qed.
(** the same behind any number of calls, so also for sp_random_state_new *)
Lemma seeds_later n a b : word64 a -> word64 b -> a <> b ->
  fst (draws random_u64 4 (snd (draws random_u64 n (random_state_new a)))) <> fst (draws random_u64 4 (snd (draws random_u64 n (random_state_new b)))).
Proof.
  intros Ha Hb Hn E. rewrite !draws_snd in E.
  assert (V : forall c, valid_state (Nat.iter n state_step (random_state_new c))) by (intros c; clear E; induction n as [|k IH]; [apply state_new_valid|apply step_valid; exact IH]).
  assert (G : Nat.iter n state_step (random_state_new a) = Nat.iter n state_step (random_state_new b) -> random_state_new a = random_state_new b).
  { clear E V. induction n as [|k IH]; [exact (fun x => x)|]. intros E. apply IH. assert (V : forall c, valid_state (Nat.iter k state_step (random_state_new c))) by (intros c; clear IH E; induction k as [|k IH]; [apply state_new_valid|apply step_valid; exact IH]).
    exact (step_injective _ _ (V a) (V b) E). }
  apply state_determined in E; auto. apply G in E. pose proof (seeds_differ a b Ha Hb Hn) as D.
  destruct (random_state_new a) as [[[a0 a1] a2] a3], (random_state_new b) as [[[b0 b1] b2] b3]. injection E as -> -> -> ->. destruct D as (D & _). apply D. reflexivity.
Qed.
Lemma sp_seeds_later n a b : word64 a -> word64 b -> a <> b ->
  fst (draws random_u64 4 (snd (draws random_u64 n (sp_random_state_new a)))) <> fst (draws random_u64 4 (snd (draws random_u64 n (sp_random_state_new b)))).
Proof.
  intros Ha Hb Hn. assert (G : forall c, snd (draws random_u64 n (sp_random_state_new c)) = snd (draws random_u64 (S (S n)) (random_state_new c))).
  { intros c. rewrite !draws_snd, !Nat_iter_succ_r. unfold sp_random_state_new, random_u32. destruct (random_state_new c) as [[[c0 c1] c2] c3]. reflexivity. }
  rewrite !G. apply seeds_later; assumption.
Qed.

Lemma u32_uniform s0 s2 s3 y : 0 <= y < two32 ->
  exists f : Z -> Z,
  (forall i, 0 <= i < two32 -> word64 (f i) /\ fst (random_u32 (s0, f i, s2, s3)) = y) /\
  (forall i j, 0 <= i < two32 -> 0 <= j < two32 -> f i = f j -> i = j) /\
  (forall x, word64 x -> fst (random_u32 (s0, x, s2, s3)) = y -> exists i, 0 <= i < two32 /\ f i = x).
Proof.
  intros Hy. exists (fun i => second_word (y * two32 + i)).
  assert (W : forall i, 0 <= i < two32 -> word64 (y * two32 + i)) by (unfold word64, two64, two32 in *; intros; lia).
  assert (R : forall x, fst (random_u32 (s0, x, s2, s3)) = u64 (9 * rotl (u64 (5 * x)) 7) / two32).
  { intros x. unfold random_u32. cbn [random_u64 fst]. rewrite Z.shiftr_div_pow2 by lia. reflexivity. }
  splits.
  - intros i Hi. split; [apply second_word_word|]. rewrite R, second_word_of by auto. unfold two32 in *. rewrite Z.div_add_l, Z.div_small by lia. lia.
  - intros i j Hi Hj E. apply (f_equal (fun x => u64 (9 * rotl (u64 (5 * x)) 7))) in E. rewrite !second_word_of in E by auto. lia.
  - intros x Hx E. rewrite R in E. exists (u64 (9 * rotl (u64 (5 * x)) 7) mod two32). split; [apply Z.mod_pos_bound; reflexivity|].
    rewrite <- (of_second_word x Hx) at 2. f_equal. rewrite (Z.div_mod (u64 (9 * rotl (u64 (5 * x)) 7)) two32) at 2 by discriminate. rewrite E. lia.
Qed.
Lemma u32_range s : 0 <= fst (random_u32 s) < two32.
Proof.
  destruct s as [[[s0 s1] s2] s3]. unfold random_u32. cbn [random_u64 fst]. rewrite Z.shiftr_div_pow2 by lia.
  pose proof (word_u64 (9 * rotl (u64 (5 * s1)) 7)) as W. unfold word64, two64 in W. change (2 ^ 32) with two32. unfold two32. split; [apply Z.div_pos; lia|apply Z.div_lt_upper_bound; lia].
Qed.
