From Verif Require Import Base MiscModel MiscSpec MiscProofs CombModel CombSpec.
From Coq Require Import Permutation.

(** ** Shuffle *)
Lemma aset_app {A} (pre suf : list A) r x : aset (pre ++ suf) (length pre + r) x = (s <- aset suf r x ;; Some (pre ++ s)).
Proof.
  induction pre as [|p pre IH]; cbn [app length plus aset].
  - destruct (aset suf r x); reflexivity.
  - rewrite IH. destruct (aset suf r x); reflexivity.
Qed.
Lemma aget_app {A} (pre suf : list A) r : aget (pre ++ suf) (length pre + r) = aget suf r.
Proof. unfold aget. rewrite nth_error_app2 by lia. f_equal. lia. Qed.

Lemma aset_split {A} (l : list A) i y l' : aset l i y = Some l' -> exists a x b, l = a ++ x :: b /\ length a = i /\ l' = a ++ y :: b.
Proof.
  revert i l'. induction l as [|h l IH]; intros [|i] l' H; cbn in H; try discriminate.
  - injection H as <-. exists [], h, l. auto.
  - destruct (aset l i y) as [t|] eqn:E; [|discriminate]. injection H as <-. destruct (IH _ _ E) as [a [x [b [-> [<- ->]]]]].
    exists (h :: a), x, b. auto.
Qed.

Lemma aget_app0 {A} (pre suf : list A) x : aget (pre ++ x :: suf) (length pre) = Some x.
Proof. pose proof (aget_app pre (x :: suf) 0) as H. rewrite Nat.add_0_r in H. exact H. Qed.
Lemma aset_app0 {A} (pre suf : list A) x y : aset (pre ++ x :: suf) (length pre) y = Some (pre ++ y :: suf).
Proof. pose proof (aset_app pre (x :: suf) 0 y) as H. rewrite Nat.add_0_r in H. exact H. Qed.
Lemma swap_front {A} (pre suf : list A) x r y : nth_error (x :: suf) r = Some y ->
  exists suf1, swap (pre ++ x :: suf) (length pre) (length pre + r) = Some (pre ++ y :: suf1) /\ Permutation (x :: suf) (y :: suf1).
Proof.
  intro H. unfold swap. rewrite aget_app0. cbn [bind]. rewrite aget_app. unfold aget. rewrite H. cbn [bind].
  rewrite aset_app0. cbn [bind]. rewrite aset_app. destruct r as [|r]; cbn [aset bind].
  - cbn in H. injection H as ->. exists suf. auto.
  - cbn in H. pose proof (nth_error_lt _ _ _ H) as Hr. destruct (aset_some suf r x Hr) as [s1 E1]. rewrite E1. cbn [bind].
    exists s1. split; [reflexivity|]. destruct (aset_split _ _ _ _ E1) as [a [x' [b [-> [<- ->]]]]].
    rewrite nth_error_app2, Nat.sub_diag in H by lia. cbn in H. injection H as ->.
    transitivity (x :: y :: a ++ b); [constructor; symmetry; apply Permutation_middle|].
    transitivity (y :: x :: a ++ b); [constructor|]. constructor. apply Permutation_middle.
Qed.

Definition shuffle_body {A St} (random : St -> Z -> option (Z * St)) (count i : nat) (s : list A * St) : option (list A * St) :=
  let '(l, st) := s in
  '(r, st) <- random st (Z.of_nat (count - i)) ;; l <- swap l i (i + Z.to_nat r) ;; Some (l, st).
Lemma shuffle_unfold {A St} (random : St -> Z -> option (Z * St)) (l : list A) count st :
  shuffle random l count st = for_from 0 count (shuffle_body random count) (l, st).
Proof. unfold shuffle, for_. rewrite Nat.sub_0_r. apply for_from_ext. intros i [l0 s0] _. reflexivity. Qed.

Lemma shuffle_step {A St} (random : St -> Z -> option (Z * St)) (pre suf post : list A) x st r st' n :
  length suf = n -> random st (Z.of_nat (S n)) = Some (r, st') -> (0 <= r < Z.of_nat (S n))%Z ->
  exists y suf1, nth_error (x :: suf) (Z.to_nat r) = Some y /\ Permutation (x :: suf) (y :: suf1) /\ length suf1 = n /\
  forall count, count - length pre = S n -> shuffle_body random count (length pre) (pre ++ x :: suf ++ post, st) = Some (pre ++ y :: suf1 ++ post, st').
Proof.
  intros HL HR HB. destruct (nth_error_some (x :: suf) (Z.to_nat r)) as [y Hy]; [cbn; lia|].
  destruct (swap_front pre suf x _ y Hy) as [suf1 [E P]]. exists y, suf1. splits; auto.
  - apply Permutation_length in P. cbn in P. lia.
  - intros count HC. unfold shuffle_body. rewrite HC, HR. cbn [bind].
    assert (E2 : swap (pre ++ x :: suf ++ post) (length pre) (length pre + Z.to_nat r) = Some (pre ++ y :: suf1 ++ post)).
    { clear - E Hy. assert (HG : forall (l post : list A) i j l', swap l i j = Some l' -> swap (l ++ post) i j = Some (l' ++ post)).
      { clear. intros l post i j l' H. unfold swap in *. destruct (aget l i) as [a|] eqn:E1; [|discriminate]. cbn [bind] in H.
        destruct (aget l j) as [b|] eqn:E2; [|discriminate]. cbn [bind] in H. destruct (aset l i b) as [l1|] eqn:E3; [|discriminate]. cbn [bind] in H.
        unfold aget in *. rewrite !nth_error_app1 by (eapply nth_error_lt; eauto). rewrite E1. cbn [bind]. rewrite E2. cbn [bind].
        assert (HA : forall (l : list A) i x l', aset l i x = Some l' -> aset (l ++ post) i x = Some (l' ++ post)).
        { clear. induction l as [|h l IH]; intros [|i] x l' H; cbn in *; try discriminate.
          - injection H as <-. reflexivity.
          - destruct (aset l i x) eqn:E; [|discriminate]. injection H as <-. rewrite (IH _ _ _ E). reflexivity. }
        rewrite (HA _ _ _ _ E3). cbn [bind]. now apply HA. }
      apply (HG _ post) in E. now rewrite <- !app_assoc in E. }
    rewrite E2. reflexivity.
Qed.

Lemma shuffle_from {A St} (random : St -> Z -> option (Z * St)) : bounded random ->
  forall n (suf pre post : list A) st, length suf = n ->
  exists suf' st', for_from (length pre) n (shuffle_body random (length pre + n)) (pre ++ suf ++ post, st) = Some (pre ++ suf' ++ post, st') /\ Permutation suf suf'.
Proof.
  intros HB. induction n as [|n IH]; intros suf pre post st HL.
  - exists suf, st. split; auto.
  - destruct suf as [|x suf]; [discriminate|]. cbn in HL. destruct (HB st (Z.of_nat (S n))) as [r [st1 [HR HRB]]]; [lia|].
    destruct (shuffle_step random pre suf post x st r st1 n) as [y [suf1 [_ [HP [HL1 HE]]]]]; auto.
    cbn [for_from app]. rewrite HE by lia. cbn [bind].
    destruct (IH suf1 (pre ++ [y]) post st1 HL1) as [suf2 [st2 [E2 P2]]]. rewrite app_length in E2. cbn [length] in E2.
    replace (length pre + 1 + n) with (length pre + S n) in E2 by lia. replace (length pre + 1) with (S (length pre)) in E2 by lia.
    rewrite <- !app_assoc in E2. cbn [app] in E2. rewrite E2. exists (y :: suf2), st2. split; [reflexivity|].
    transitivity (y :: suf1); auto.
Qed.

Lemma shuffle_permutes {A St} (random : St -> Z -> option (Z * St)) (l : list A) count st :
  bounded random -> count <= length l ->
  exists l' st', shuffle random l count st = Some (l', st') /\ Permutation (firstn count l) (firstn count l') /\ skipn count l' = skipn count l.
Proof.
  intros HB HC. rewrite shuffle_unfold.
  assert (HF : length (firstn count l) = count) by (rewrite firstn_length; lia).
  destruct (shuffle_from random HB count (firstn count l) [] (skipn count l) st) as [suf' [st' [E P]]]; auto.
  cbn [length plus app] in E. rewrite firstn_skipn in E. exists (suf' ++ skipn count l), st'. split; [exact E|].
  assert (HL : length suf' = count) by (rewrite <- (Permutation_length P); exact HF).
  split.
  - rewrite firstn_app, HL, Nat.sub_diag, firstn_O, app_nil_r. rewrite <- HL at 2. now rewrite firstn_all.
  - rewrite skipn_app, HL, Nat.sub_diag, skipn_O. rewrite <- HL at 1. now rewrite skipn_all.
Qed.

(** later steps leave earlier elements alone *)
Lemma shuffle_prefix {A St} (random : St -> Z -> option (Z * St)) count n : forall i (l l' : list A) st st',
  for_from i n (shuffle_body random count) (l, st) = Some (l', st') -> forall j, j < i -> nth_error l' j = nth_error l j.
Proof.
  induction n as [|n IH]; intros i l l' st st' H j Hj; cbn [for_from] in H.
  - now injection H as <- _.
  - unfold shuffle_body at 1 in H. destruct (random st (Z.of_nat (count - i))) as [[r st1]|]; [|discriminate]. cbn [bind] in H.
    destruct (swap l i (i + Z.to_nat r)) as [l1|] eqn:ES; [|discriminate]. cbn [bind] in H.
    rewrite (IH _ _ _ _ _ H j) by lia. unfold swap in ES. destruct (aget l i) as [a|]; [|discriminate]. cbn [bind] in ES.
    destruct (aget l (i + Z.to_nat r)) as [b|]; [|discriminate]. cbn [bind] in ES. destruct (aset l i b) as [l2|] eqn:E2; [|discriminate]. cbn [bind] in ES.
    rewrite (aset_get _ _ _ _ j ES), (aset_get _ _ _ _ j E2). bd; try lia. reflexivity.
Qed.

Lemma NoDup_nth {A} (l : list A) i j x : NoDup l -> nth_error l i = Some x -> nth_error l j = Some x -> i = j.
Proof. intros HN Hi Hj. apply (proj1 (NoDup_nth_error l) HN); [eapply nth_error_lt; eauto|congruence]. Qed.

Lemma choices_unique {A} : forall n (suf suf' pre : list A), length suf = n -> NoDup suf -> Permutation suf suf' ->
  exists cs, for_from (length pre) n (shuffle_body choose (length pre + n)) (pre ++ suf, cs) = Some (pre ++ suf', []) /\
  forall cs', for_from (length pre) n (shuffle_body choose (length pre + n)) (pre ++ suf, cs') = Some (pre ++ suf', []) -> cs' = cs.
Proof.
  induction n as [|n IH]; intros suf suf' pre HL HN HP.
  - destruct suf; [|discriminate]. apply Permutation_nil in HP. subst suf'. exists []. cbn [for_from]. split; [reflexivity|].
    intros cs' H. now injection H.
  - destruct suf as [|x suf]; [discriminate|]. cbn in HL. destruct suf' as [|y t']; [symmetry in HP; now apply Permutation_nil_cons in HP|].
    assert (HY : In y (x :: suf)) by (apply (Permutation_in y (Permutation_sym HP)); now left).
    apply In_nth_error in HY. destruct HY as [r Hr]. pose proof (nth_error_lt _ _ _ Hr) as HrL. cbn in HrL.
    assert (HC : forall cs, choose (Z.of_nat r :: cs) (Z.of_nat (S n)) = Some (Z.of_nat r, cs)).
    { intro cs. cbn [choose]. replace (0 <=? Z.of_nat r)%Z with true by lia. replace (Z.of_nat r <? Z.of_nat (S n))%Z with true by lia. reflexivity. }
    destruct (swap_front pre suf x r y Hr) as [suf1 [ES P1]].
    assert (HL1 : length suf1 = n) by (apply Permutation_length in P1; cbn in P1; lia).
    assert (HN1 : NoDup suf1) by (apply (Permutation_NoDup P1) in HN; now inversion HN).
    assert (P2 : Permutation suf1 t') by (apply Permutation_cons_inv with y; transitivity (x :: suf); [now symmetry|exact HP]).
    destruct (IH suf1 t' (pre ++ [y]) HL1 HN1 P2) as [cs [E1 U1]].
    rewrite app_length in E1, U1. cbn [length] in E1, U1.
    replace (length pre + 1 + n) with (length pre + S n) in E1, U1 by lia. replace (length pre + 1) with (S (length pre)) in E1, U1 by lia.
    assert (HB : forall cs, shuffle_body choose (length pre + S n) (length pre) (pre ++ x :: suf, Z.of_nat r :: cs) = Some ((pre ++ [y]) ++ suf1, cs)).
    { intro cs0. unfold shuffle_body. replace (length pre + S n - length pre) with (S n) by lia. rewrite HC. cbn [bind].
      rewrite Nat2Z.id, ES. cbn [bind]. now rewrite <- app_assoc. }
    rewrite <- !app_assoc in E1. cbn [app] in E1.
    exists (Z.of_nat r :: cs). cbn [for_from]. split.
    + rewrite HB. cbn [bind]. rewrite <- app_assoc. exact E1.
    + intros cs' H. unfold shuffle_body at 1 in H. replace (length pre + S n - length pre) with (S n) in H by lia.
      destruct cs' as [|c cs']; [discriminate|]. cbn [choose] in H. destruct ((0 <=? c) && (c <? Z.of_nat (S n)))%Z eqn:EC; [|discriminate]. cbn [bind] in H.
      apply andb_true_iff in EC. destruct EC as [EC1 EC2]. apply Z.leb_le in EC1. apply Z.ltb_lt in EC2.
      destruct (nth_error_some (x :: suf) (Z.to_nat c)) as [z Hz]; [cbn; lia|].
      destruct (swap_front pre suf x _ z Hz) as [suf2 [ES2 P3]]. rewrite ES2 in H. cbn [bind] in H.
      assert (HZ : z = y).
      { pose proof (shuffle_prefix _ _ _ _ _ _ _ _ H (length pre) ltac:(lia)) as Q. rewrite !nth_error_app2 in Q by lia.
        rewrite Nat.sub_diag in Q. cbn in Q. congruence. }
      subst z. pose proof (NoDup_nth _ _ _ _ HN Hr Hz) as HR2. rewrite <- HR2 in ES2. rewrite ES in ES2. injection ES2 as ES2. apply app_inv_head in ES2. injection ES2 as <-.
      f_equal; [lia|]. apply U1. rewrite <- !app_assoc. exact H.
Qed.

Lemma shuffle_bijective {A} (l l' : list A) : NoDup l -> Permutation l l' ->
  exists! cs, shuffle choose l (length l) cs = Some (l', []).
Proof.
  intros HN HP. destruct (choices_unique (length l) l l' [] eq_refl HN HP) as [cs [E U]]. exists cs. split.
  - rewrite shuffle_unfold. exact E.
  - intros cs' H. symmetry. apply U. rewrite shuffle_unfold in H. exact H.
Qed.

(** ** Discrete random numbers *)
Lemma zsum_cons x l : zsum (x :: l) = (x + zsum l)%Z. Proof. reflexivity. Qed.
Lemma zsum_firstn_nth l i x : nth_error l i = Some x -> zsum (firstn (S i) l) = (zsum (firstn i l) + x)%Z.
Proof.
  revert i. induction l as [|y l IH]; intros [|i] H; cbn [nth_error] in H; try discriminate.
  - injection H as ->. cbn. lia.
  - rewrite (firstn_cons (S i)), (firstn_cons i), !zsum_cons, (IH _ H). lia.
Qed.
Lemma zsum_firstn_mono l i j : Forall (fun x => 0 <= x)%Z l -> i <= j -> (zsum (firstn i l) <= zsum (firstn j l))%Z.
Proof.
  intro HF. revert i j. induction HF as [|x l Hx HF IH]; intros [|i] [|j] H; cbn [firstn]; rewrite ?firstn_nil; try lia.
  - specialize (IH 0 j ltac:(lia)). rewrite firstn_O in IH. rewrite zsum_cons. cbn in *. lia.
  - rewrite !zsum_cons. specialize (IH i j ltac:(lia)). lia.
Qed.

Lemma discrete_index_spec cudist d : let k := discrete_index cudist d in
  (forall j c, j < k -> nth_error cudist j = Some c -> (c <= d)%Z) /\ (k < length cudist -> exists c, nth_error cudist k = Some c /\ (d < c)%Z) /\ k <= length cudist.
Proof.
  induction cudist as [|c cudist IH]; cbn [discrete_index length].
  - splits; intros; lia.
  - cbv zeta in *. destruct (Z.ltb_spec d c) as [H|H].
    + splits; intros; try lia. exists c. auto.
    + destruct IH as [H1 [H2 H3]]. splits.
      * intros [|j] c0 Hj E; cbn in E; [injection E as <-; exact H|]. apply (H1 j c0); auto; lia.
      * intro HK. apply H2. lia.
      * lia.
Qed.

Lemma cumulative_nth dist i : i < length dist -> nth_error (cumulative dist) i = Some (zsum (firstn (S i) dist)).
Proof. intro H. unfold cumulative. now rewrite map_nth_error_seq. Qed.
Lemma cumulative_length dist : length (cumulative dist) = length dist.
Proof. unfold cumulative. now rewrite map_length, seq_length. Qed.

Lemma discrete_index_correct dist d i : Forall (fun x => 0 <= x)%Z dist -> (0 <= d < zsum dist)%Z ->
  (discrete_index (cumulative dist) d = i <-> i < length dist /\ (zsum (firstn i dist) <= d < zsum (firstn (S i) dist))%Z).
Proof.
  intros HF Hd. destruct (discrete_index_spec (cumulative dist) d) as [H1 [H2 H3]]. rewrite cumulative_length in *.
  set (k := discrete_index (cumulative dist) d) in *. clearbody k.
  assert (HK : k < length dist).
  { destruct (Nat.lt_ge_cases k (length dist)) as [|HG]; auto. exfalso. destruct dist as [|x dist]; [cbn in Hd; lia|].
    specialize (H1 (length dist) (zsum (x :: dist))). cbn [length] in *. rewrite cumulative_nth in H1 by (cbn; lia).
    replace (firstn (S (length dist)) (x :: dist)) with (x :: dist) in H1 by (symmetry; apply (firstn_all (x :: dist))). specialize (H1 ltac:(lia) eq_refl). lia. }
  destruct (H2 HK) as [c [Hc Hdc]]. rewrite cumulative_nth in Hc by exact HK. apply (f_equal (fun o => match o with Some x => x | None => 0%Z end)) in Hc. cbv beta iota in Hc. subst c.
  assert (HL : (zsum (firstn k dist) <= d)%Z).
  { destruct (Nat.eq_dec k 0) as [->|K0]; [rewrite firstn_O; cbn; lia|]. apply (H1 (k - 1)); [lia|]. rewrite cumulative_nth by lia. do 3 f_equal. lia. }
  split.
  - intros <-. auto.
  - intros [Hi [Ha Hb]]. destruct (Nat.lt_trichotomy k i) as [H|[H|H]]; auto; exfalso.
    + pose proof (zsum_firstn_mono dist (S k) i HF ltac:(lia)) as M. clear -M Ha Hdc. lia.
    + pose proof (zsum_firstn_mono dist (S i) k HF ltac:(lia)) as M. clear -M Hb HL. lia.
Qed.

Lemma cumulative_last dist : dist <> [] -> aget (cumulative dist) (length dist - 1) = Some (zsum dist).
Proof.
  intro H. apply length_pos in H. unfold aget. rewrite cumulative_nth by lia. f_equal. f_equal. replace (S (length dist - 1)) with (length dist) by lia. apply firstn_all.
Qed.

(** number of deviates that lead to an index *)

Lemma filter_all {A} (f : A -> bool) l : (forall x, In x l -> f x = true) -> filter f l = l.
Proof. induction l as [|x l IH]; intro H; cbn; [reflexivity|]. rewrite (H x (or_introl eq_refl)), IH; auto. intros y Hy. apply H. now right. Qed.
Lemma filter_none {A} (f : A -> bool) l : (forall x, In x l -> f x = false) -> filter f l = [].
Proof. induction l as [|x l IH]; intro H; cbn; [reflexivity|]. rewrite (H x (or_introl eq_refl)), IH; auto. intros y Hy. apply H. now right. Qed.
Lemma filter_interval (f : nat -> bool) n lo hi : lo <= hi <= n -> (forall x, x < n -> f x = true <-> lo <= x < hi) ->
  length (filter f (seq 0 n)) = hi - lo.
Proof.
  intros H HF. replace n with (lo + ((hi - lo) + (n - hi))) by lia. rewrite !seq_app, !filter_app, !app_length. cbn [plus].
  assert (HT : forall x, x < n -> ~ (lo <= x < hi) -> f x = false).
  { intros x H1 H2. destruct (f x) eqn:E; auto. apply HF in E; [contradiction|auto]. }
  rewrite (filter_none f (seq 0 lo)), (filter_all f (seq lo _)), (filter_none f (seq _ (n - hi))).
  - rewrite seq_length. cbn. lia.
  - intros x Hx. apply in_seq in Hx. apply HT; lia.
  - intros x Hx. apply in_seq in Hx. apply HF; lia.
  - intros x Hx. apply in_seq in Hx. apply HT; lia.
Qed.
Lemma filter_map_length {A B} (f : B -> bool) (g : A -> B) l : length (filter f (map g l)) = length (filter (fun x => f (g x)) l).
Proof. induction l as [|x l IH]; cbn; [reflexivity|]. destruct (f (g x)); cbn; auto. Qed.

Lemma discrete_count dist i p : Forall (fun x => 0 <= x)%Z dist -> nth_error dist i = Some p ->
  Z.of_nat (length (filter (fun d => discrete_index (cumulative dist) d =? i) (below (zsum dist)))) = p.
Proof.
  intros HF Hp. pose proof (nth_error_lt _ _ _ Hp) as HI.
  assert (H0 : (0 <= zsum (firstn i dist))%Z) by (pose proof (zsum_firstn_mono dist 0 i HF ltac:(lia)) as H; rewrite firstn_O in H; exact H).
  assert (HP : (0 <= p)%Z) by (eapply Forall_forall in HF; [exact HF|eapply nth_error_In; eauto]).
  assert (H1 : (zsum (firstn (S i) dist) <= zsum dist)%Z).
  { rewrite <- (firstn_all dist) at 2. apply zsum_firstn_mono; auto. }
  rewrite (zsum_firstn_nth _ _ _ Hp) in H1. unfold below. rewrite filter_map_length.
  rewrite (filter_interval _ _ (Z.to_nat (zsum (firstn i dist))) (Z.to_nat (zsum (firstn i dist) + p))).
  - lia.
  - lia.
  - intros x Hx. rewrite Nat.eqb_eq. rewrite discrete_index_correct by (auto; lia). rewrite (zsum_firstn_nth _ _ _ Hp). lia.
Qed.

Lemma random_discrete_correct {St} (random : St -> Z -> option (Z * St)) dist st :
  bounded random -> Forall (fun x => 0 <= x)%Z dist -> (0 < zsum dist)%Z ->
  exists i st' p d, random_discrete random (cumulative dist) st = Some (i, st') /\ nth_error dist i = Some p /\ (0 < p)%Z /\
  random st (zsum dist) = Some (d, st') /\ (zsum (firstn i dist) <= d < zsum (firstn (S i) dist))%Z.
Proof.
  intros HB HF HS. assert (HN : dist <> []) by (intros ->; cbn in HS; lia).
  unfold random_discrete. rewrite cumulative_length, cumulative_last by exact HN. cbn [bind].
  destruct (HB st (zsum dist) HS) as [d [st' [E Hd]]]. rewrite E. cbn [bind].
  pose proof (proj1 (discrete_index_correct dist d _ HF Hd) eq_refl) as [HI HR].
  destruct (nth_error_some dist _ HI) as [p Hp]. exists (discrete_index (cumulative dist) d), st', p, d. splits; auto; try lia.
  rewrite (zsum_firstn_nth _ _ _ Hp) in HR. lia.
Qed.

Lemma times_random_discrete_correct {St} (random : St -> Z -> option (Z * St)) dist count out st :
  bounded random -> Forall (fun x => 0 <= x)%Z dist -> (0 < zsum dist)%Z -> count <= length out ->
  exists out' st', times_random_discrete random (cumulative dist) count out st = Some (out', st') /\ length out' = length out /\
  (forall j, count <= j -> nth_error out' j = nth_error out j) /\
  (forall j, j < count -> exists k p, nth_error out' j = Some (Z.of_nat k) /\ nth_error dist k = Some p /\ (0 < p)%Z).
Proof.
  intros HB HF HS HC. assert (HN : dist <> []) by (intros ->; cbn in HS; lia).
  unfold times_random_discrete. rewrite cumulative_length, cumulative_last by exact HN. cbn [bind].
  destruct (for_inv (fun i (s : list Z * St) => length (fst s) = length out /\
    (forall j, i <= j -> nth_error (fst s) j = nth_error out j) /\
    (forall j, j < i -> exists k p, nth_error (fst s) j = Some (Z.of_nat k) /\ nth_error dist k = Some p /\ (0 < p)%Z))
    (fun i '(out, st) => '(deviate, st) <- random st (zsum dist) ;;
      let k := discrete_index (cumulative dist) deviate in
      if k <? length dist then out <- aset out i (Z.of_nat k) ;; Some (out, st) else Some (out, st)) 0 count (out, st)) as [[out' st'] [E [H1 [H2 H3]]]].
  - lia.
  - cbn. splits; auto. intros; lia.
  - intros i [o s] Hi [I1 [I2 I3]]. cbn [fst] in *. destruct (HB s (zsum dist) HS) as [d [s' [E Hd]]]. rewrite E. cbn [bind].
    pose proof (proj1 (discrete_index_correct dist d _ HF Hd) eq_refl) as [HI HR]. cbv zeta.
    set (k := discrete_index (cumulative dist) d) in *. assert (B : (k <? length dist) = true) by now apply Nat.ltb_lt. rewrite B.
    destruct (aset_some o i (Z.of_nat k)) as [o' Eo]; [lia|]. rewrite Eo. cbn [bind]. exists (o', s'). split; [reflexivity|]. cbn [fst].
    destruct (nth_error_some dist k HI) as [p Hp]. rewrite (zsum_firstn_nth _ _ _ Hp) in HR.
    splits.
    + rewrite (aset_length _ _ _ _ Eo). exact I1.
    + intros j Hj. rewrite (aset_get _ _ _ _ j Eo). bd; try lia. apply I2. lia.
    + intros j Hj. rewrite (aset_get _ _ _ _ j Eo). bd; [|apply I3; lia]. exists k, p. splits; auto; lia.
  - exists out', st'. splits; auto.
Qed.

Lemma contains_spec l : forall n v, n <= length l -> exists b, contains l n v = Some b /\ (b = true <-> In v (firstn n l)).
Proof.
  induction l as [|x l IH]; intros [|n] v H; cbn [contains firstn length] in *; try lia.
  - exists false. split; [reflexivity|]. split; [discriminate|intros []].
  - exists false. split; [reflexivity|]. split; [discriminate|intros []].
  - destruct (Z.eqb_spec v x) as [->|HN].
    + exists true. split; [reflexivity|]. split; auto. intros _. now left.
    + destruct (IH n v ltac:(lia)) as [b [E Hb]]. exists b. split; [exact E|]. rewrite Hb. split; [now right|]. intros [H1|H1]; [congruence|auto].
Qed.

Lemma unique_loop_correct {St} (random : St -> Z -> option (Z * St)) dist size : bounded random -> Forall (fun x => 0 <= x)%Z dist -> (0 < zsum dist)%Z ->
  forall fuel remaining out st out' st', remaining <= size -> size <= length out ->
  NoDup (firstn (size - remaining) out) -> Forall (fun x => exists k p, x = Z.of_nat k /\ nth_error dist k = Some p /\ (0 < p)%Z) (firstn (size - remaining) out) ->
  discrete_unique_loop random fuel (cumulative dist) size remaining out st = Some (out', st') ->
  NoDup (firstn size out') /\ Forall (fun x => exists k p, x = Z.of_nat k /\ nth_error dist k = Some p /\ (0 < p)%Z) (firstn size out') /\ length out' = length out /\
  skipn size out' = skipn size out.
Proof.
  intros HB HF HS. induction fuel as [|fuel IH]; intros remaining out st out' st' HR HO HN HD H.
  - destruct remaining; cbn in H; [|discriminate]. injection H as <- <-. rewrite Nat.sub_0_r in *. auto.
  - destruct remaining as [|less]; cbn [discrete_unique_loop] in H.
    + injection H as <- <-. rewrite Nat.sub_0_r in *. auto.
    + destruct (random_discrete_correct random dist st HB HF HS) as [k [s1 [p [d [E1 [Hp [Hp0 _]]]]]]]. rewrite E1 in H. cbn [bind] in H.
      destruct (contains_spec out (size - S less) (Z.of_nat k) ltac:(lia)) as [b [Eb Hb]]. rewrite Eb in H. cbn [bind] in H.
      destruct b; [eapply IH; eauto|].
      destruct (aset_some out (size - S less) (Z.of_nat k) ltac:(lia)) as [o1 Eo]. rewrite Eo in H. cbn [bind] in H.
      destruct (aset_split _ _ _ _ Eo) as [a [x [b [E2 [La ->]]]]].
      assert (F1 : firstn (size - less) (a ++ Z.of_nat k :: b) = a ++ [Z.of_nat k]).
      { rewrite firstn_app. rewrite (firstn_all2 a) by lia. replace (size - less - length a) with 1 by lia. reflexivity. }
      assert (F0 : firstn (size - S less) out = a).
      { rewrite E2, firstn_app, La, Nat.sub_diag, firstn_O, app_nil_r. rewrite <- La. apply firstn_all. }
      rewrite F0 in HN, HD, Hb. apply IH in H.
      * destruct H as [H1 [H2 [H3 H4]]]. splits; auto; [rewrite H3, E2, !app_length; reflexivity|]. rewrite H4, E2. rewrite !skipn_app.
        replace (size - length a) with (S (size - length a - 1)) by lia. reflexivity.
      * lia.
      * rewrite E2 in HO. rewrite app_length in *. exact HO.
      * rewrite F1. apply NoDup_app_comm || apply Permutation_NoDup with (Z.of_nat k :: a); [apply Permutation_cons_append|].
        constructor; auto. intro HI. apply Hb in HI. discriminate.
      * rewrite F1. apply Forall_app. split; auto. constructor; auto. exists k, p. auto.
Qed.

Lemma unique_correct {St} (random : St -> Z -> option (Z * St)) dist size fuel out st out' st' :
  bounded random -> Forall (fun x => 0 <= x)%Z dist -> (0 < zsum dist)%Z -> size <= length dist -> size <= length out ->
  random_discrete_unique random fuel (cumulative dist) size out st = Some (out', st') ->
  NoDup (firstn size out') /\ Forall (fun x => exists k p, x = Z.of_nat k /\ nth_error dist k = Some p /\ (0 < p)%Z) (firstn size out') /\ length out' = length out /\
  skipn size out' = skipn size out.
Proof.
  intros HB HF HS HD HO H. unfold random_discrete_unique in H. rewrite cumulative_length, Nat.min_l in H by exact HD.
  eapply unique_loop_correct; eauto; rewrite Nat.sub_diag, firstn_O; constructor.
Qed.

Lemma unique_no_end {St} (random : St -> Z -> option (Z * St)) dist size fuel out st :
  bounded random -> Forall (fun x => 0 <= x)%Z dist -> (0 < zsum dist)%Z -> size <= length dist -> size <= length out ->
  length (filter (fun p => 0 <? p)%Z dist) < size ->
  random_discrete_unique random fuel (cumulative dist) size out st = None.
Proof.
  intros HB HF HS HD HO HC. destruct (random_discrete_unique random fuel (cumulative dist) size out st) as [[out' st']|] eqn:E; auto. exfalso.
  destruct (unique_correct random dist size fuel out st out' st' HB HF HS HD HO E) as [HN [HA [HL _]]].
  set (good := filter (fun k => match nth_error dist k with Some p => (0 <? p)%Z | None => false end) (seq 0 (length dist))).
  assert (HI : incl (firstn size out') (map Z.of_nat good)).
  { intros x Hx. eapply Forall_forall in HA; [|exact Hx]. destruct HA as [k [p [-> [Hp Hp0]]]]. apply in_map. apply filter_In. split.
    - apply in_seq. pose proof (nth_error_lt _ _ _ Hp). lia.
    - rewrite Hp. lia. }
  apply NoDup_incl_length in HI; auto. rewrite map_length, firstn_length, HL, Nat.min_l in HI by lia.
  assert (HG : length good = length (filter (fun p => 0 <? p)%Z dist)).
  { unfold good. clear. induction dist as [|x dist IH] using rev_ind; [reflexivity|]. rewrite app_length. cbn [length]. rewrite Nat.add_1_r, seq_S, !filter_app, !app_length. cbn [plus].
    f_equal.
    - rewrite <- IH. f_equal. apply filter_ext_in. intros k Hk. apply in_seq in Hk. now rewrite nth_error_app1 by lia.
    - cbn [filter]. rewrite nth_error_app2, Nat.sub_diag by lia. cbn. destruct (0 <? x)%Z; reflexivity. }
  lia.
Qed.
