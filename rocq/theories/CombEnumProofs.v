From Verif Require Import Base MiscModel MiscSpec MiscProofs CombModel CombSpec CombProofs.
From Coq Require Import Permutation Factorial.

(** ** Permutations: the loop emits size! rows, all permutations of the array it starts with *)
Lemma swap_perm {A} (l l' : list A) i j : swap l i j = Some l' -> Permutation l l'.
Proof.
  unfold swap. intro H. destruct (aget l i) as [x|] eqn:E1; [|discriminate]. cbn [bind] in H. destruct (aget l j) as [y|] eqn:E2; [|discriminate]. cbn [bind] in H.
  destruct (aset l i y) as [l1|] eqn:E3; [|discriminate]. cbn [bind] in H.
  destruct (aset_split _ _ _ _ E3) as [a [x0 [b [-> [La ->]]]]]. rewrite <- La in E1. rewrite aget_app0 in E1. injection E1 as ->.
  destruct (Nat.lt_trichotomy j (length a)) as [HJ|[HJ|HJ]].
  - destruct (aset_split _ _ _ _ H) as [c [z [d [Ec [Lc ->]]]]]. unfold aget in E2.
    assert (Hz : z = y).
    { rewrite nth_error_app1 in E2 by lia. assert (Q : nth_error (a ++ y :: b) j = Some z) by (rewrite Ec, nth_error_app2, Lc, Nat.sub_diag by lia; reflexivity).
      rewrite nth_error_app1 in Q by lia. congruence. }
    subst z. apply Permutation_cons_inv with y. transitivity (x :: a ++ y :: b).
    + transitivity (y :: x :: a ++ b); [constructor; symmetry; apply Permutation_middle|]. transitivity (x :: y :: a ++ b); [constructor|]. constructor. apply Permutation_middle.
    + rewrite Ec. transitivity (x :: y :: c ++ d); [constructor; symmetry; apply Permutation_middle|]. transitivity (y :: x :: c ++ d); [constructor|]. constructor. apply Permutation_middle.
  - rewrite HJ in H, E2. rewrite aget_app0 in E2. injection E2 as ->. rewrite aset_app0 in H. injection H as <-. reflexivity.
  - destruct (aset_split _ _ _ _ H) as [c [z [d [Ec [Lc ->]]]]]. unfold aget in E2.
    assert (Hz : z = y).
    { assert (Q : nth_error (a ++ y :: b) j = Some z) by (rewrite Ec, nth_error_app2, Lc, Nat.sub_diag by lia; reflexivity).
      rewrite nth_error_app2 in Q, E2 by lia. destruct (j - length a) as [|m] eqn:EJ; [lia|]. cbn in Q, E2. congruence. }
    subst z. apply Permutation_cons_inv with y. transitivity (x :: a ++ y :: b).
    + transitivity (y :: x :: a ++ b); [constructor; symmetry; apply Permutation_middle|]. transitivity (x :: y :: a ++ b); [constructor|]. constructor. apply Permutation_middle.
    + rewrite Ec. transitivity (x :: y :: c ++ d); [constructor; symmetry; apply Permutation_middle|]. transitivity (y :: x :: c ++ d); [constructor|]. constructor. apply Permutation_middle.
Qed.
Lemma swap_some {A} (l : list A) i j : i < length l -> j < length l -> exists l', swap l i j = Some l'.
Proof.
  intros Hi Hj. unfold swap, aget. destruct (nth_error_some l i Hi) as [x ->]. cbn [bind]. destruct (nth_error_some l j Hj) as [y ->]. cbn [bind].
  destruct (aset_some l i y Hi) as [l1 E1]. rewrite E1. cbn [bind]. apply aset_some. rewrite (aset_length _ _ _ _ E1). exact Hj.
Qed.

Lemma aset_same {A} (l : list A) i x : nth_error l i = Some x -> aset l i x = Some l.
Proof.
  intro H. destruct (aset_some l i x (nth_error_lt _ _ _ H)) as [l' E]. rewrite E. f_equal. apply nth_error_ext. intro j.
  rewrite (aset_get _ _ _ _ j E). bd; congruence.
Qed.

Definition emits (size : nat) (limit : Z) (a : list Z) (s : list nat) (i : nat) (rows : list (list Z)) (a' : list Z) (s' : list nat) (i' : nat) (rows' : list (list Z)) : Prop :=
  exists n, forall fuel, permutations_loop (n + fuel) size limit a s i rows = permutations_loop fuel size limit a' s' i' (rows ++ rows').
Lemma emits_refl size limit a s i rows : emits size limit a s i rows a s i [].
Proof. exists 0. intro fuel. now rewrite app_nil_r. Qed.
Lemma emits_trans size limit a s i rows a1 s1 i1 r1 a2 s2 i2 r2 :
  emits size limit a s i rows a1 s1 i1 r1 -> emits size limit a1 s1 i1 (rows ++ r1) a2 s2 i2 r2 -> emits size limit a s i rows a2 s2 i2 (r1 ++ r2).
Proof.
  intros [n1 H1] [n2 H2]. exists (n1 + n2). intro fuel. rewrite <- Nat.add_assoc, H1, H2. now rewrite app_assoc.
Qed.

Lemma run_emits size limit : forall k a s rows, k <= size -> length a = size -> length s = size -> (forall j, j < k -> nth_error s j = Some 0) ->
  (Z.of_nat (length rows + fact k) <= limit + 1)%Z ->
  exists a' rows', emits size limit a s 0 rows a' s k rows' /\ S (length rows') = fact k /\ Permutation a a' /\ Forall (Permutation a) rows'.
Proof.
  induction k as [|k IH]; intros a s rows Hk La Ls HZ HL.
  - exists a, []. split; [apply emits_refl|]. auto.
  - assert (HC : forall m c a s rows, m = k - c -> c <= k -> length a = size -> length s = size -> (forall j, j < k -> nth_error s j = Some 0) -> nth_error s k = Some c ->
        (Z.of_nat (length rows + fact k * S m) <= limit + 1)%Z ->
        exists a' rows' s', emits size limit a s 0 rows a' s' (S k) rows' /\ S (length rows') = fact k * S m /\ Permutation a a' /\ Forall (Permutation a) rows' /\ aset s k 0 = Some s').
    { clear a s rows La Ls HZ HL. induction m as [|m IHm]; intros c a s rows Em Hc La Ls HZ Hsk HL.
      - assert (c = k) by lia. subst c. destruct (IH a s rows ltac:(lia) La Ls HZ ltac:(lia)) as [a1 [r1 [E1 [N1 [P1 F1]]]]].
        destruct (aset_some s k 0 ltac:(lia)) as [s' Es']. exists a1, r1, s'. splits; auto; [|lia].
        rewrite <- (app_nil_r r1). apply (emits_trans _ _ _ _ _ _ a1 s k r1); auto. exists 1. intro fuel. cbn [plus permutations_loop].
        assert (B : (k <? size) = true) by (apply Nat.ltb_lt; lia). rewrite B. unfold aget at 1. rewrite Hsk. cbn [bind].
        rewrite Nat.ltb_irrefl, Es'. cbn [bind]. rewrite app_nil_r. replace (k + 1) with (S k) by lia. reflexivity.
      - assert (HF : fact k * S (S m) = fact k + fact k * S m) by lia. pose proof (lt_O_fact k) as HP.
        destruct (IH a s rows ltac:(lia) La Ls HZ ltac:(lia)) as [a1 [r1 [E1 [N1 [P1 F1]]]]].
        pose proof (Permutation_length P1) as L1.
        assert (ES : exists a2, (if Nat.odd k then swap a1 c k else swap a1 0 k) = Some a2) by (destruct (Nat.odd k); apply swap_some; lia).
        destruct ES as [a2 ES]. assert (P2 : Permutation a1 a2) by (destruct (Nat.odd k); eapply swap_perm; eauto).
        destruct (aset_some s k (c + 1) ltac:(lia)) as [s2 Es2].
        destruct (IHm (c + 1) a2 s2 ((rows ++ r1) ++ [a2])) as [a3 [r3 [s3 [E3 [N3 [P3 [F3 Z3]]]]]]]; try lia.
        + rewrite <- (Permutation_length P2). lia.
        + rewrite (aset_length _ _ _ _ Es2). exact Ls.
        + intros j Hj. rewrite (aset_get _ _ _ _ j Es2). bd; try lia. now apply HZ.
        + rewrite (aset_get _ _ _ _ k Es2). bd; try lia. reflexivity.
        + rewrite !app_length. cbn [length]. lia.
        + exists a3, (r1 ++ ([a2] ++ r3)), s3. splits.
          * apply (emits_trans _ _ _ _ _ _ a1 s k r1); auto. apply (emits_trans _ _ _ _ _ _ a2 s2 0 [a2]); auto. exists 1. intro fuel. cbn [plus permutations_loop].
            assert (B : (k <? size) = true) by (apply Nat.ltb_lt; lia). rewrite B. unfold aget at 1. rewrite Hsk. cbn [bind].
            assert (B2 : (c <? k) = true) by (apply Nat.ltb_lt; lia). rewrite B2, ES. cbn [bind]. rewrite Es2. cbn [bind].
            assert (B3 : (Z.of_nat (length (rows ++ r1)) <? limit)%Z = true) by (rewrite app_length; lia). rewrite B3. cbn [need bind]. reflexivity.
          * rewrite !app_length. cbn [length]. lia.
          * rewrite P1, P2. exact P3.
          * apply Forall_app. split; auto. apply Forall_app. split; [repeat constructor; now rewrite P1|].
            eapply Forall_impl; [|exact F3]. intros r Hr. now rewrite P1, P2.
          * rewrite <- Z3. clear - Es2. revert k s2 Es2. induction s as [|h s IH]; intros [|k] s2 H; cbn in H; try discriminate.
            -- injection H as <-. reflexivity.
            -- destruct (aset s k (c + 1)) eqn:E; [|discriminate]. injection H as <-. cbn. now rewrite (IH _ _ E). }
    assert (HL2 : (Z.of_nat (length rows + fact k * S k) <= limit + 1)%Z) by (change (fact (S k)) with ((S k) * fact k) in HL; rewrite (Nat.mul_comm (fact k)); exact HL).
    assert (HZ2 : forall j, j < k -> nth_error s j = Some 0) by (intros j Hj; apply HZ; lia).
    destruct (HC k 0 a s rows ltac:(lia) ltac:(lia) La Ls HZ2 (HZ k ltac:(lia)) HL2) as [a' [r' [s' [E [N [P [F Z0]]]]]]].
    { rewrite aset_same in Z0 by (apply HZ; lia). injection Z0 as <-. exists a', r'. splits; auto.
      change (fact (S k)) with ((S k) * fact k). lia. }
Qed.

Lemma factorial_fact n : factorial n = Z.of_nat (fact n).
Proof. induction n as [|n IH]; [reflexivity|]. cbn [factorial]. rewrite IH. change (fact (S n)) with (S n * fact n). lia. Qed.

Lemma permutations_zero size set : (factorial size < two32)%Z -> size <= length set ->
  exists n rows, (forall fuel, permutations (n + fuel) size set = Some (rows, repeat 0%Z size ++ skipn size set)) /\
  Z.of_nat (length rows) = factorial size /\ Forall (fun r => r = repeat 0%Z size) rows.
Proof.
  intros HF HS. assert (HP : (0 < factorial size)%Z) by (rewrite factorial_fact; pose proof (lt_O_fact size); lia).
  assert (HL : time_factorial size = factorial size) by (rewrite factorial_correct; apply Z.mod_small; lia).
  destruct (run_emits size (factorial size) size (repeat 0%Z size) (repeat 0 size) [repeat 0%Z size]) as [a' [r' [[n E] [N [P F]]]]]; auto; try apply repeat_length.
  - intros j Hj. now apply nth_error_repeat.
  - rewrite factorial_fact. cbn [length]. lia.
  - exists n, (repeat 0%Z size :: r'). splits.
    + intro fuel. unfold permutations. rewrite HL. assert (B : (0 <? factorial size)%Z = true) by lia. rewrite B. cbn [need bind].
      unfold blit. rewrite slice_some by (rewrite repeat_length; lia). cbn [bind]. rewrite skipn_O.
      rewrite firstn_all2 by (rewrite repeat_length; lia). unfold splice. rewrite repeat_length.
      assert (B2 : (0 + size <=? length set) = true) by (apply Nat.leb_le; lia). rewrite B2. cbn [bind]. rewrite E.
      destruct fuel; cbn [permutations_loop]; rewrite Nat.ltb_irrefl; reflexivity.
    + cbn [length]. rewrite factorial_fact. lia.
    + constructor; auto. eapply Forall_impl; [|exact F]. intros r Hr. symmetry. clear - Hr.
      apply nth_error_length_eq; [now apply Permutation_length|]. intros i Hi. rewrite repeat_length in Hi. rewrite nth_error_repeat by exact Hi.
      destruct (nth_error_some r i) as [x Hx]; [rewrite <- (Permutation_length Hr), repeat_length; exact Hi|]. rewrite Hx.
      assert (I : In x (repeat 0%Z size)) by (eapply Permutation_in; [symmetry; exact Hr|eapply nth_error_In; eauto]). apply repeat_spec in I. now subst.
Qed.

(** ** Compositions *)
(** rank from the end: binary number with one bit per proper suffix *)
Fixpoint rank (l : list Z) : Z := match l with [] => 0 | _ :: rest => 2 ^ (zsum rest - 1) + rank rest end%Z.
Lemma zsum_repeat1 n : zsum (repeat 1%Z n) = Z.of_nat n.
Proof. induction n as [|n IH]; [reflexivity|]. cbn [repeat]. rewrite zsum_cons, IH. lia. Qed.
Lemma composition_pos n l : composition n l -> l <> [] -> (0 < n)%Z.
Proof.
  intros [HF <-] HN. destruct HF as [|x l Hx HF]; [contradiction|]. clear HN. rewrite zsum_cons.
  assert (0 <= zsum l)%Z; [|lia]. induction HF; [cbn; lia|rewrite zsum_cons; lia].
Qed.
Lemma zsum_nonneg l : Forall (fun x => 0 < x)%Z l -> (0 <= zsum l)%Z.
Proof. induction 1; [cbn; lia|rewrite zsum_cons; lia]. Qed.
Lemma zsum_pos_length l : Forall (fun x => 0 < x)%Z l -> (Z.of_nat (length l) <= zsum l)%Z.
Proof. induction 1; [cbn; lia|rewrite zsum_cons; cbn [length]; lia]. Qed.

Lemma rank_bound l : Forall (fun x => 0 < x)%Z l -> (0 <= rank l /\ (l <> [] -> rank l < 2 ^ (zsum l - 1)))%Z.
Proof.
  induction 1 as [|x l Hx HF IH]; [split; [cbn; lia|contradiction]|]. cbn [rank]. rewrite zsum_cons. pose proof (zsum_nonneg l HF) as HS.
  destruct l as [|y l].
  - change (zsum []) with 0%Z in *. change (rank []) with 0%Z. change (2 ^ (0 - 1))%Z with 0%Z. split; [lia|]. intros _. apply Z.add_neg_nonpos || (assert (0 < 2 ^ (x + 0 - 1))%Z by (apply Z.pow_pos_nonneg; lia); lia).
  - destruct IH as [I1 I2]. specialize (I2 ltac:(discriminate)). set (t := zsum (y :: l)) in *. set (r := rank (y :: l)) in *.
    assert (HT : (0 < t)%Z) by (unfold t; apply (composition_pos _ (y :: l)); [split; auto|discriminate]).
    assert (HPP : (0 < 2 ^ (t - 1))%Z) by (apply Z.pow_pos_nonneg; lia). split; [lia|]. intros _.
    assert (2 * 2 ^ (t - 1) <= 2 ^ (x + t - 1))%Z; [|lia].
    rewrite <- Z.pow_succ_r by lia. apply Z.pow_le_mono_r; lia.
Qed.

Lemma rank_inj : forall l l', Forall (fun x => 0 < x)%Z l -> Forall (fun x => 0 < x)%Z l' -> zsum l = zsum l' -> rank l = rank l' -> l = l'.
Proof.
  induction l as [|x l IH]; intros [|x' l'] HF HF' HS HR; auto.
  - rewrite zsum_cons in HS. apply Forall_cons_iff in HF'. destruct HF' as [H1 H2]. pose proof (zsum_nonneg l' H2). cbn in HS. lia.
  - rewrite zsum_cons in HS. apply Forall_cons_iff in HF. destruct HF as [H1 H2]. pose proof (zsum_nonneg l H2). cbn in HS. lia.
  - apply Forall_cons_iff in HF. destruct HF as [H1 H2]. apply Forall_cons_iff in HF'. destruct HF' as [H1' H2'].
    rewrite !zsum_cons in HS. cbn [rank] in HR.
    pose proof (rank_bound l H2) as [B1 B2]. pose proof (rank_bound l' H2') as [B1' B2']. pose proof (zsum_nonneg l H2) as N1. pose proof (zsum_nonneg l' H2') as N2.
    assert (HLT : forall a b ra rb (la lb : list Z), (0 <= a)%Z -> (a < b)%Z -> (0 <= rb)%Z -> (ra < 2 ^ (a - 1) \/ (ra = 0 /\ a = 0))%Z -> (2 ^ (a - 1) + ra = 2 ^ (b - 1) + rb)%Z -> False).
    { intros a b ra rb _ _ A0 AB RB RA EQ. assert (2 * 2 ^ (a - 1) <= 2 ^ (b - 1))%Z.
      - destruct (Z.eq_dec a 0) as [->|]; [change (2 ^ (0 - 1))%Z with 0%Z; apply Z.pow_nonneg; lia|].
        rewrite <- Z.pow_succ_r by lia. apply Z.pow_le_mono_r; lia.
      - destruct RA as [RA|[-> ->]]; [lia|]. change (2 ^ (0 - 1))%Z with 0%Z in *. assert (0 < 2 ^ (b - 1))%Z by (apply Z.pow_pos_nonneg; lia). lia. }
    assert (HE : zsum l = zsum l').
    { destruct (Z.lt_trichotomy (zsum l) (zsum l')) as [H|[H|H]]; auto; exfalso.
      - apply (HLT (zsum l) (zsum l') (rank l) (rank l') l l'); auto. destruct l; [right; auto|left; apply B2; discriminate].
      - apply (HLT (zsum l') (zsum l) (rank l') (rank l) l l'); auto. destruct l'; [right; auto|left; apply B2'; discriminate]. }
    f_equal; [lia|]. apply IH; auto. rewrite HE in HR. lia.
Qed.

Lemma rank_app l X X' : zsum X = zsum X' -> (rank (l ++ X') - rank (l ++ X) = rank X' - rank X)%Z.
Proof. intro H. induction l as [|x l IH]; [reflexivity|]. cbn [app rank]. rewrite !zsum_app, H. lia. Qed.
Lemma rank_ones n : rank (repeat 1%Z (S n)) = (2 ^ Z.of_nat n - 1)%Z.
Proof.
  induction n as [|n IH]; [reflexivity|]. cbn [repeat] in *. cbn [rank] in *. rewrite !zsum_cons in *. rewrite zsum_repeat1 in *. rewrite IH.
  replace (1 + Z.of_nat n - 1)%Z with (Z.of_nat n) by lia. rewrite Nat2Z.inj_succ, Z.pow_succ_r by lia. lia.
Qed.
Lemma rank_step l p q : (0 < q)%Z -> rank (l ++ (p + 1)%Z :: repeat 1%Z (Z.to_nat (q - 1))) = (rank (l ++ [p; q]) - 1)%Z.
Proof.
  intro Hq. set (X' := (p + 1)%Z :: repeat 1%Z (Z.to_nat (q - 1))).
  assert (HS : zsum [p; q] = zsum X') by (unfold X'; rewrite !zsum_cons, zsum_repeat1; change (zsum []) with 0%Z; lia).
  pose proof (rank_app l [p; q] X' HS) as H. assert (HD : (rank X' - rank [p; q] = -1)%Z); [|lia].
  unfold X'. cbn [rank]. rewrite !zsum_cons, zsum_repeat1. change (zsum []) with 0%Z. change (2 ^ (0 - 1))%Z with 0%Z.
  destruct (Z.to_nat (q - 1)) as [|m] eqn:E.
  - assert (q = 1)%Z by lia. subst q. reflexivity.
  - rewrite rank_ones. assert (EQ : q = (Z.of_nat m + 2)%Z) by lia. rewrite EQ.
    replace (Z.of_nat (S m) - 1)%Z with (Z.of_nat m) by lia. replace (Z.of_nat m + 2 + 0 - 1)%Z with (Z.succ (Z.of_nat m)) by lia. rewrite Z.pow_succ_r by lia. lia.
Qed.

Lemma fill_correct : forall y fuel pre tail x, y < fuel -> y < length tail -> (Z.of_nat y < two32)%Z ->
  exists L x' tail', compositions_fill fuel (pre ++ tail) x (Z.of_nat y) (length pre) = Some (pre ++ L ++ tail', x', 0%Z, length pre + y) /\
  L ++ [x'] = x :: repeat 1%Z y /\ length L = y /\ y + length tail' = length tail.
Proof.
  induction y as [|y IH]; intros fuel pre tail x Hf Ht Hy.
  - destruct fuel; [lia|]. exists [], x, tail. splits; auto. cbn [compositions_fill]. rewrite Nat.add_0_r. reflexivity.
  - destruct fuel as [|fuel]; [lia|]. cbn [compositions_fill]. assert (B : (1 <=? Z.of_nat (S y))%Z = true) by lia. rewrite B.
    destruct tail as [|t tail]; [cbn in Ht; lia|]. rewrite aset_app0. cbn [bind]. rewrite u32_small by lia.
    replace (Z.of_nat (S y) - 1)%Z with (Z.of_nat y) by lia. destruct (IH fuel (pre ++ [x]) tail 1%Z) as [L [x' [tail' [E [E2 [E3 E4]]]]]]; try (cbn in *; lia).
    rewrite app_length in E. cbn [length] in E. rewrite <- !app_assoc in E. cbn [app] in E.
    exists (x :: L), x', tail'. splits.
    + replace (length pre + S y) with (length pre + 1 + y) by lia. rewrite E. reflexivity.
    + cbn [app repeat]. now rewrite E2.
    + cbn. lia.
    + cbn. lia.
Qed.

Definition generates (sum : nat) (limit : Z) (a : list Z) (k : nat) (o rows : list (list Z)) : Prop :=
  exists n, forall fuel, compositions_loop (n + fuel) sum limit a k o = Some (o ++ rows).

Lemma step_correct sum limit l p q rest o : length (l ++ p :: q :: rest) = 1 + sum -> (Z.of_nat sum < two32)%Z ->
  (0 <= p)%Z -> (0 < q)%Z -> Forall (fun x => 0 < x)%Z l -> (zsum l + p + q = Z.of_nat sum)%Z -> (Z.of_nat (length o) < limit)%Z ->
  let row := l ++ (p + 1)%Z :: repeat 1%Z (Z.to_nat (q - 1)) in
  exists rest', length (row ++ rest') = 1 + sum /\ forall fuel,
  compositions_loop (S fuel) sum limit (l ++ p :: q :: rest) (length l + 1) o = compositions_loop fuel sum limit (row ++ rest') (length row - 1) (o ++ [row]).
Proof.
  intros HL HS Hp Hq HF HSum HO row. pose proof (zsum_pos_length l HF) as HLS. rewrite app_length in HL. cbn [length] in HL.
  set (y := Z.to_nat (q - 1)) in *. assert (Hy : Z.of_nat y = (q - 1)%Z) by (unfold y; lia).
  destruct (fill_correct y (S sum) l (p :: q :: rest) (p + 1)%Z) as [L [x' [tail' [E [E2 [E3 E4]]]]]]; try (cbn [length]; lia).
  cbn [length] in E4. destruct tail' as [|t tail']; [cbn in E4; lia|]. cbn [length] in E4.
  assert (HR : row = l ++ L ++ [x']) by (unfold row; now rewrite E2).
  exists tail'. split; [rewrite HR, !app_length; cbn [length]; lia|]. intro fuel.
  replace (length l + 1) with (S (length l)) by lia. cbn [compositions_loop].
  rewrite aget_app0. cbn [bind]. replace (S (length l)) with (length l + 1) by lia. rewrite aget_app. cbn [aget nth_error bind].
  rewrite (u32_small (p + 1)), (u32_small (q - 1)) by lia. rewrite <- Hy. rewrite E. cbn [bind].
  assert (LL : length (l ++ L) = length l + y) by (rewrite app_length; lia).
  rewrite app_assoc, <- LL, aset_app0. cbn [bind].
  assert (HX : u32 (x' + 0) = x').
  { rewrite Z.add_0_r. apply u32_small. assert (I : In x' ((p + 1)%Z :: repeat 1%Z y)) by (rewrite <- E2; apply in_or_app; right; now left).
    destruct I as [<-|I]; [lia|]. apply repeat_spec in I. unfold two32. lia. }
  rewrite HX. assert (RA : (l ++ L) ++ x' :: tail' = row ++ tail') by (rewrite HR, <- !app_assoc; reflexivity). rewrite RA.
  assert (LR : length row = length (l ++ L) + 1) by (rewrite HR, !app_length; cbn [length]; lia).
  rewrite slice_some by (rewrite (app_length row); lia). cbn [bind]. rewrite skipn_O, <- LR.
  rewrite firstn_app, firstn_all, Nat.sub_diag, firstn_O, app_nil_r.
  assert (B : (Z.of_nat (length o) <? limit)%Z = true) by lia. rewrite B. cbn [need bind]. f_equal. lia.
Qed.

Lemma loop_generates sum limit : (Z.of_nat sum < two32)%Z -> forall w row rest o,
  length (row ++ rest) = 1 + sum -> composition (Z.of_nat sum) row -> row <> [] -> rank row = Z.of_nat w -> (Z.of_nat (length o + w) <= limit)%Z ->
  exists rows, generates sum limit (row ++ rest) (length row - 1) o rows /\ length rows = w /\ Forall (composition (Z.of_nat sum)) rows /\
  map rank rows = map Z.of_nat (rev (seq 0 w)).
Proof.
  intro HS. induction w as [|w IH]; intros row rest o HL HC HN HR HO.
  - assert (E : row = [Z.of_nat sum]).
    { apply rank_inj; [apply HC| | |rewrite HR; reflexivity].
      - constructor; [apply (composition_pos _ _ HC HN)|constructor].
      - rewrite (proj2 HC). rewrite zsum_cons. change (zsum []) with 0%Z. lia. }
    rewrite E. exists []. splits; auto. exists 0. intro fuel. cbn [length Nat.sub plus]. rewrite app_nil_r. destruct fuel; reflexivity.
  - destruct row as [|q l0 _] using rev_ind; [contradiction|]. destruct l0 as [|p l _] using rev_ind.
    { change (rank ([] ++ [q])) with 0%Z in HR. lia. }
    rewrite <- app_assoc in *. cbn [app] in *. destruct HC as [HF HSum]. rewrite zsum_app, !zsum_cons in HSum. change (zsum []) with 0%Z in HSum.
    apply Forall_app in HF. destruct HF as [HF1 HF2]. apply Forall_cons_iff in HF2. destruct HF2 as [Hp HF2]. apply Forall_cons_iff in HF2. destruct HF2 as [Hq _].
    destruct (step_correct sum limit l p q rest o) as [rest' [L' E']]; auto; try lia.
    { rewrite <- app_assoc in HL. exact HL. }
    set (row := l ++ (p + 1)%Z :: repeat 1%Z (Z.to_nat (q - 1))) in *.
    assert (RR : rank row = Z.of_nat w) by (unfold row; rewrite rank_step by exact Hq; lia).
    assert (CR : composition (Z.of_nat sum) row).
    { split.
      - apply Forall_app. split; auto. constructor; [lia|]. apply Forall_forall. intros x Hx. apply repeat_spec in Hx. lia.
      - unfold row. rewrite zsum_app, zsum_cons, zsum_repeat1. lia. }
    destruct (IH row rest' (o ++ [row])) as [rows [[n G] [N [F M]]]]; auto.
    { unfold row. destruct l; discriminate. }
    { rewrite app_length. cbn [length]. lia. }
    exists (row :: rows). splits.
    + exists (S n). intro fuel. cbn [plus]. rewrite <- ?app_assoc. cbn [app]. replace (length (l ++ [p; q]) - 1) with (length l + 1) by (rewrite app_length; cbn [length]; lia).
      rewrite E', G. now rewrite <- app_assoc.
    + cbn. lia.
    + constructor; auto.
    + rewrite seq_S, rev_app_distr. cbn [plus rev app map]. rewrite RR, M. reflexivity.
Qed.

Lemma NoDup_map_rank (rows : list (list Z)) : NoDup (map rank rows) -> NoDup rows.
Proof. apply NoDup_map_inv. Qed.

Lemma compositions_size sum : 1 <= sum <= 32 -> time_expt 2 (u32 (Z.of_nat sum - 1)) = Some (2 ^ (Z.of_nat sum - 1))%Z.
Proof.
  intro H. assert (T : (Z.of_nat sum < two32)%Z) by (unfold two32; lia). rewrite u32_small by lia. rewrite expt_correct by lia. f_equal. apply Z.mod_small.
  split; [apply Z.pow_nonneg; lia|]. change two32 with (2 ^ 32)%Z. apply Z.pow_lt_mono_r; lia.
Qed.

Lemma compositions_correct sum : 1 <= sum <= 32 ->
  exists n rows, (forall fuel, compositions (n + fuel) sum = Some rows) /\ NoDup rows /\ Z.of_nat (length rows) = (2 ^ (Z.of_nat sum - 1))%Z /\
  (forall l, In l rows <-> composition (Z.of_nat sum) l).
Proof.
  intro HS. set (limit := (2 ^ (Z.of_nat sum - 1))%Z).
  assert (HT : (Z.of_nat sum < two32)%Z) by (unfold two32; lia).
  assert (HLim : (0 < limit)%Z) by (apply Z.pow_pos_nonneg; lia).
  pose proof (compositions_size sum HS) as EO. fold limit in EO.
  assert (DL : limit = (2 ^ (Z.of_nat sum - 1))%Z) by reflexivity. clearbody limit.
  destruct (aset_some (repeat 0%Z (1 + sum)) 1 (Z.of_nat sum)) as [a Ea]; [rewrite repeat_length; lia|].
  assert (HA : exists rest, a = [0%Z; Z.of_nat sum] ++ rest /\ length rest = sum - 1).
  { destruct sum as [|sum]; [lia|]. cbn in Ea. injection Ea as <-. exists (repeat 0%Z sum). split; [reflexivity|]. rewrite repeat_length. lia. }
  destruct HA as [rest [-> LR]].
  destruct (step_correct sum limit [] 0%Z (Z.of_nat sum) rest []) as [rest' [L' E']];  cbn [length app]; change (zsum []) with 0%Z; try lia.
  { constructor. }
  set (ones := repeat 1%Z sum) in *.
  assert (OE : [] ++ (0 + 1)%Z :: repeat 1%Z (Z.to_nat (Z.of_nat sum - 1)) = ones).
  { unfold ones. replace sum with (S (Z.to_nat (Z.of_nat sum - 1))) at 2 by lia. reflexivity. }
  rewrite OE in L', E'.
  assert (CO : composition (Z.of_nat sum) ones).
  { split; [apply Forall_forall; intros x Hx; apply repeat_spec in Hx; lia|apply zsum_repeat1]. }
  assert (RO : rank ones = (limit - 1)%Z) by (unfold ones; replace sum with (S (sum - 1)) by lia; rewrite rank_ones; rewrite DL; do 2 f_equal; lia).
  destruct (loop_generates sum limit HT (Z.to_nat (limit - 1)) ones rest' [ones]) as [rows [[n G] [N [F M]]]]; auto.
  { intro E0. apply (f_equal (@length Z)) in E0. unfold ones in E0. rewrite repeat_length in E0. cbn in E0. lia. }
  { lia. }
  { cbn [length]. lia. }
  assert (MR : map rank (ones :: rows) = map Z.of_nat (rev (seq 0 (Z.to_nat limit)))).
  { replace (Z.to_nat limit) with (S (Z.to_nat (limit - 1))) by lia. rewrite seq_S, rev_app_distr. cbn [plus rev app map]. rewrite M. f_equal. lia. }
  assert (FC : Forall (composition (Z.of_nat sum)) (ones :: rows)) by (constructor; auto).
  exists (S n), (ones :: rows). splits.
  - intro fuel. unfold compositions. rewrite EO. cbn [bind]. rewrite Ea. cbn [bind]. cbn [plus]. change (compositions_loop (S (n + fuel)) sum limit ([] ++ 0%Z :: Z.of_nat sum :: rest) (length (@nil Z) + 1) [] = Some (ones :: rows)). rewrite E', G. reflexivity.
  - apply NoDup_map_inv with (f := rank). rewrite MR. apply FinFun.Injective_map_NoDup; [intros x y; lia|]. apply NoDup_rev, seq_NoDup.
  - cbn [length]. lia.
  - intro l. split.
    + intro H. eapply Forall_forall in FC; eauto.
    + intro H. assert (HN : l <> []) by (intros ->; destruct H as [_ H]; cbn in H; lia).
      destruct (rank_bound l (proj1 H)) as [B1 B2]. specialize (B2 HN). rewrite (proj2 H) in B2.
      assert (I : In (rank l) (map rank (ones :: rows))).
      { rewrite MR. apply in_map_iff. exists (Z.to_nat (rank l)). split; [lia|]. apply -> in_rev. apply in_seq. rewrite <- DL in B2. lia. }
      apply in_map_iff in I. destruct I as [l' [ER I]]. eapply Forall_forall in FC; [|exact I].
      replace l with l'; [exact I|]. apply rank_inj; auto; [apply FC|apply H|]. rewrite (proj2 FC), (proj2 H). reflexivity.
Qed.
