From Verif Require Import Base RandModel RandSpec.
From Coq Require Import Btauto.
Open Scope Z_scope.

Lemma two64_pow : two64 = 2 ^ 64. Proof. reflexivity. Qed.
Lemma word_iff x : word64 x <-> u64 x = x.
Proof. unfold word64. split; [apply u64_small|]. intro H. rewrite <- H. apply u64_range. Qed.
Lemma tb_u64 x n : 0 <= n -> Z.testbit (u64 x) n = (n <? 64) && Z.testbit x n.
Proof.
  intro H. unfold u64. rewrite two64_pow. destruct (Z.ltb_spec n 64); cbn [andb]; [now apply Z.mod_pow2_bits_low|apply Z.mod_pow2_bits_high; lia].
Qed.
Lemma tb_word x n : word64 x -> 64 <= n -> Z.testbit x n = false.
Proof. intros H Hn. apply word_iff in H. rewrite <- H, tb_u64 by lia. replace (n <? 64) with false by lia. reflexivity. Qed.
Lemma word_bits x : (forall n, 64 <= n -> Z.testbit x n = false) -> word64 x.
Proof.
  intro H. apply word_iff. apply Z.bits_inj'. intros n Hn. rewrite tb_u64 by exact Hn. destruct (Z.ltb_spec n 64); [reflexivity|]. rewrite H by lia. reflexivity.
Qed.
Lemma word_lxor a b : word64 a -> word64 b -> word64 (Z.lxor a b).
Proof. intros Ha Hb. apply word_bits. intros n Hn. rewrite Z.lxor_spec, !tb_word by auto. reflexivity. Qed.
Lemma word_u64 x : word64 (u64 x). Proof. apply u64_range. Qed.
Lemma tb_shl x k n : 0 <= n -> Z.testbit (u64 (Z.shiftl x k)) n = (n <? 64) && Z.testbit x (n - k).
Proof. intro H. rewrite tb_u64, Z.shiftl_spec by exact H. reflexivity. Qed.
Lemma tb_rotl x k n : word64 x -> 0 < k < 64 -> 0 <= n -> Z.testbit (rotl x k) n = (n <? 64) && (if n <? k then Z.testbit x (n + 64 - k) else Z.testbit x (n - k)).
Proof.
  intros Hx Hk Hn. unfold rotl. rewrite Z.lor_spec, tb_shl, Z.shiftr_spec by lia. replace (n + (64 - k)) with (n + 64 - k) by lia.
  destruct (Z.ltb_spec n 64), (Z.ltb_spec n k); cbn [andb]; try lia.
  - rewrite (Z.testbit_neg_r x (n - k)) by lia. reflexivity.
  - rewrite (tb_word x (n + 64 - k)) by (auto; lia). now rewrite orb_false_r.
  - rewrite (tb_word x (n + 64 - k)) by (auto; lia). reflexivity.
Qed.
Lemma word_rotl x k : word64 x -> 0 < k < 64 -> word64 (rotl x k).
Proof. intros Hx Hk. apply word_bits. intros n Hn. rewrite tb_rotl by (auto; lia). replace (n <? 64) with false by lia. reflexivity. Qed.
Lemma rotl_rotl x k j : word64 x -> 0 < k < 64 -> j = 64 - k -> rotl (rotl x k) j = x.
Proof.
  intros Hx Hk ->. apply Z.bits_inj'. intros n Hn. rewrite tb_rotl by (auto using word_rotl; lia). destruct (Z.ltb_spec n 64); cbn [andb]; [|symmetry; apply tb_word; auto].
  destruct (Z.ltb_spec n (64 - k)); rewrite tb_rotl by (auto; lia).
  - replace (n + 64 - (64 - k) <? 64) with true by lia. replace (n + 64 - (64 - k) <? k) with false by lia. cbn [andb]. f_equal. lia.
  - replace (n - (64 - k) <? 64) with true by lia. replace (n - (64 - k) <? k) with true by lia. cbn [andb]. f_equal. lia.
Qed.

(** x xor (x << 17) *)
Definition unshift17 (w : Z) : Z := Z.lxor w (Z.lxor (u64 (Z.shiftl w 17)) (Z.lxor (u64 (Z.shiftl w 34)) (u64 (Z.shiftl w 51)))).
Lemma tb_neg x n : n < 0 -> Z.testbit x n = false. Proof. apply Z.testbit_neg_r. Qed.
Lemma word_unshift w : word64 w -> word64 (unshift17 w).
Proof. intro H. unfold unshift17. repeat apply word_lxor; auto using word_u64. Qed.
Lemma tb_xorshift x n : word64 x -> 0 <= n < 64 -> forall k, 0 <= k -> Z.testbit (Z.lxor x (u64 (Z.shiftl x 17))) (n - k) = xorb (Z.testbit x (n - k)) (Z.testbit x (n - k - 17)).
Proof.
  intros Hx Hn k Hk. destruct (Z.ltb_spec (n - k) 0) as [L|L]; [rewrite !tb_neg by lia; reflexivity|].
  rewrite Z.lxor_spec, tb_shl by lia. replace (n - k <? 64) with true by lia. reflexivity.
Qed.
Lemma unshift_shift x : word64 x -> unshift17 (Z.lxor x (u64 (Z.shiftl x 17))) = x.
Proof.
  intro Hx. apply Z.bits_inj'. intros n Hn. destruct (Z.ltb_spec n 64) as [L|L]; [|rewrite !tb_word by (auto using word_unshift, word_lxor, word_u64); reflexivity].
  unfold unshift17. rewrite (Z.lxor_spec (Z.lxor x _)), 2!(Z.lxor_spec (u64 _)), 3!tb_shl by lia. replace (n <? 64) with true by lia. cbn [andb].
  rewrite <- (Z.sub_0_r n) at 1. rewrite !tb_xorshift by (auto; lia). rewrite Z.sub_0_r.
  replace (n - 51 - 17) with (n - 68) by lia. rewrite (tb_neg x (n - 68)) by lia. replace (n - 17 - 17) with (n - 34) by lia. replace (n - 34 - 17) with (n - 51) by lia.
  destruct (Z.testbit x n), (Z.testbit x (n - 17)), (Z.testbit x (n - 34)), (Z.testbit x (n - 51)); reflexivity.
Qed.
Lemma shift_unshift w : word64 w -> Z.lxor (unshift17 w) (u64 (Z.shiftl (unshift17 w) 17)) = w.
Proof.
  intro Hw. apply Z.bits_inj'. intros n Hn. destruct (Z.ltb_spec n 64) as [L|L]; [|rewrite !tb_word by (auto using word_unshift, word_lxor, word_u64); reflexivity].
  assert (G : forall k, 0 <= k -> Z.testbit (unshift17 w) (n - k) = xorb (Z.testbit w (n - k)) (xorb (Z.testbit w (n - k - 17)) (xorb (Z.testbit w (n - k - 34)) (Z.testbit w (n - k - 51))))).
  { intros k Hk. destruct (Z.ltb_spec (n - k) 0) as [M|M]; [rewrite !tb_neg by lia; reflexivity|].
    unfold unshift17. rewrite !Z.lxor_spec, !tb_shl by lia. replace (n - k <? 64) with true by lia. reflexivity. }
  rewrite Z.lxor_spec, tb_shl by lia. replace (n <? 64) with true by lia. cbn [andb]. rewrite <- (Z.sub_0_r n) at 1. rewrite !G by lia. rewrite Z.sub_0_r.
  replace (n - 17 - 51) with (n - 68) by lia. rewrite (tb_neg w (n - 68)) by lia. replace (n - 17 - 17) with (n - 34) by lia. replace (n - 17 - 34) with (n - 51) by lia.
  destruct (Z.testbit w n), (Z.testbit w (n - 17)), (Z.testbit w (n - 34)), (Z.testbit w (n - 51)); reflexivity.
Qed.

Ltac xor_bits := apply Z.bits_inj'; intros n Hn; rewrite ?Z.lxor_spec; repeat match goal with |- context [Z.testbit ?a ?b] => destruct (Z.testbit a b) end; reflexivity.

Lemma pair4 (a b c d a' b' c' d' : Z) : a = a' -> b = b' -> c = c' -> d = d' -> (a, b, c, d) = (a', b', c', d').
Proof. congruence. Qed.
Definition unstep (s : rstate) : rstate :=
  let '(a0, a1, a2, a3) := s in
  let u := rotl a3 19 in
  let s0 := Z.lxor a0 u in
  let s1 := unshift17 (Z.lxor a1 a2) in
  (s0, s1, Z.lxor a1 (Z.lxor s1 s0), Z.lxor u s1).

Lemma step_valid s : valid_state s -> valid_state (state_step s).
Proof.
  destruct s as [[[s0 s1] s2] s3]. intros [H0 [H1 [H2 H3]]]. unfold state_step, valid_state. splits; repeat apply word_lxor; auto using word_u64. apply word_rotl; [now apply word_lxor|lia].
Qed.
Lemma unstep_valid s : valid_state s -> valid_state (unstep s).
Proof.
  destruct s as [[[s0 s1] s2] s3]. intros [H0 [H1 [H2 H3]]]. unfold unstep, valid_state.
  assert (R : word64 (rotl s3 19)) by (apply word_rotl; [auto|lia]). assert (U : word64 (unshift17 (Z.lxor s1 s2))) by (apply word_unshift; now apply word_lxor).
  set (v := unshift17 (Z.lxor s1 s2)) in *. clearbody v. splits; auto 7 using word_lxor.
Qed.
Lemma unstep_step s : valid_state s -> unstep (state_step s) = s.
Proof.
  destruct s as [[[s0 s1] s2] s3]. intros [H0 [H1 [H2 H3]]]. unfold state_step, unstep.
  rewrite (rotl_rotl (Z.lxor s3 s1) 45 19) by (auto using word_lxor; lia).
  replace (Z.lxor (Z.lxor s1 (Z.lxor s2 s0)) (Z.lxor (Z.lxor s2 s0) (u64 (Z.shiftl s1 17)))) with (Z.lxor s1 (u64 (Z.shiftl s1 17))) by xor_bits.
  rewrite unshift_shift by exact H1. apply pair4; xor_bits.
Qed.
Lemma step_unstep s : valid_state s -> state_step (unstep s) = s.
Proof.
  destruct s as [[[a0 a1] a2] a3]. intros [H0 [H1 [H2 H3]]]. unfold state_step, unstep. set (s1 := unshift17 (Z.lxor a1 a2)).
  assert (S1 : Z.lxor s1 (u64 (Z.shiftl s1 17)) = Z.lxor a1 a2) by (apply shift_unshift; now apply word_lxor).
  set (t := u64 (Z.shiftl s1 17)) in *. clearbody t. set (u := rotl a3 19).
  assert (U : rotl u 45 = a3) by (apply rotl_rotl; auto; lia).
  replace (Z.lxor (Z.lxor u s1) s1) with u by xor_bits. rewrite U.
  replace (Z.lxor (Z.lxor (Z.lxor a1 (Z.lxor s1 (Z.lxor a0 u))) (Z.lxor a0 u)) t) with (Z.lxor a1 (Z.lxor s1 t)) by xor_bits. rewrite S1.
  apply pair4; xor_bits.
Qed.
Lemma step_zero : state_step zero_state = zero_state. Proof. reflexivity. Qed.
Lemma step_injective s s' : valid_state s -> valid_state s' -> state_step s = state_step s' -> s = s'.
Proof. intros H H' E. rewrite <- (unstep_step s H), <- (unstep_step s' H'). congruence. Qed.
Lemma zero_valid : valid_state zero_state. Proof. unfold valid_state, zero_state, word64, two64. lia. Qed.
Lemma step_nonzero s : valid_state s -> s <> zero_state -> state_step s <> zero_state.
Proof. intros H N E. apply N. apply step_injective; auto using zero_valid. Qed.

(** ** splitmix *)
Lemma tb_shr x k n : 0 <= n -> Z.testbit (Z.shiftr x k) n = Z.testbit x (n + k). Proof. apply Z.shiftr_spec. Qed.
Lemma word_shr x k : word64 x -> 0 <= k -> word64 (Z.shiftr x k).
Proof. intros H Hk. apply word_bits. intros n Hn. rewrite tb_shr by lia. apply tb_word; auto; lia. Qed.
Lemma xorshift_right_inv x k : word64 x -> 22 <= k -> let y := Z.lxor x (Z.shiftr x k) in Z.lxor y (Z.lxor (Z.shiftr y k) (Z.shiftr y (2 * k))) = x.
Proof.
  intros Hx Hk y. apply Z.bits_inj'. intros n Hn. unfold y. rewrite (Z.lxor_spec (Z.lxor x _)), (Z.lxor_spec (Z.shiftr _ k)), !tb_shr by lia.
  rewrite !Z.lxor_spec, !tb_shr by lia. replace (n + 2 * k) with (n + k + k) by lia. rewrite (tb_word x (n + k + k + k)) by (auto; lia).
  destruct (Z.testbit x n), (Z.testbit x (n + k)), (Z.testbit x (n + k + k)); reflexivity.
Qed.
Lemma xorshift_right_inj x y k : word64 x -> word64 y -> 22 <= k -> Z.lxor x (Z.shiftr x k) = Z.lxor y (Z.shiftr y k) -> x = y.
Proof. intros Hx Hy Hk E. rewrite <- (xorshift_right_inv x k Hx Hk), <- (xorshift_right_inv y k Hy Hk). cbv zeta. rewrite E. reflexivity. Qed.
Lemma mul_odd_inj x y c c' : word64 x -> word64 y -> (c * c') mod two64 = 1 -> u64 (x * c) = u64 (y * c) -> x = y.
Proof.
  intros Hx Hy HC E. assert (G : forall z, word64 z -> u64 (u64 (z * c) * c') = z).
  { intros z Hz. unfold u64 in *. rewrite Zmult_mod_idemp_l, <- Z.mul_assoc, Z.mul_mod, HC, Z.mul_1_r, Z.mod_mod by discriminate. apply Z.mod_small. exact Hz. }
  rewrite <- (G x Hx), <- (G y Hy). now rewrite E.
Qed.
Lemma splitmix_inj x y : word64 x -> word64 y -> splitmix x = splitmix y -> x = y.
Proof.
  intros Hx Hy E. unfold splitmix in E. apply xorshift_right_inj in E; auto using word_u64; try lia.
  apply (mul_odd_inj _ _ _ 3573116690164977347) in E; auto using word_lxor, word_shr, word_u64; try (apply word_lxor; [|apply word_shr]; auto using word_u64; lia); try reflexivity.
  apply xorshift_right_inj in E; auto using word_u64; try lia.
  apply (mul_odd_inj _ _ _ 10871156337175269513) in E; try (apply word_lxor; [|apply word_shr]; auto; lia); try reflexivity.
  apply xorshift_right_inj in E; auto; lia.
Qed.
Lemma splitmix_word x : word64 x -> word64 (splitmix x).
Proof. intro H. unfold splitmix. apply word_lxor; [|apply word_shr]; auto using word_u64; lia. Qed.
Lemma state_new_valid seed : valid_state (random_state_new seed).
Proof. unfold valid_state, random_state_new. splits; apply splitmix_word; apply word_u64. Qed.
Lemma state_new_nonzero seed : random_state_new seed <> zero_state.
Proof.
  unfold random_state_new, zero_state. intro E.
  assert (E0 : splitmix (u64 (seed + 11400714819323198485)) = 0) by (now injection E).
  assert (E1 : splitmix (u64 (u64 (seed + 11400714819323198485) + 11400714819323198485)) = 0) by (now injection E).
  set (s := u64 (seed + 11400714819323198485)) in *. assert (W : word64 s) by apply word_u64. clearbody s.
  assert (EQ : s = u64 (s + 11400714819323198485)) by (apply splitmix_inj; auto using word_u64; congruence).
  unfold u64, word64, two64 in *. Z.to_euclidean_division_equations. lia.
Qed.
