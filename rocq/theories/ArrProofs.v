From Verif Require Import Base ArrModel ArrSpec.
From Coq Require Import ZifyBool ZifyNat.

Lemma replace_length {A} (m : list A) p xs : p + length xs <= length m -> length (replace m p xs) = length m.
Proof. intro H. unfold replace. rewrite !app_length, firstn_length, skipn_length. lia. Qed.

Lemma replace_get {A} (m : list A) p xs j : p + length xs <= length m ->
  nth_error (replace m p xs) j = if (p <=? j) && (j <? p + length xs) then nth_error xs (j - p) else nth_error m j.
Proof.
  intro H. unfold replace. destruct (Nat.leb_spec p j) as [H1|H1]; cbn [andb].
  - rewrite nth_error_app2 by (rewrite firstn_length; lia). rewrite firstn_length, Nat.min_l by lia.
    destruct (Nat.ltb_spec j (p + length xs)).
    + apply nth_error_app1. lia.
    + rewrite nth_error_app2, nth_error_skipn by lia. f_equal. lia.
  - rewrite nth_error_app1 by (rewrite firstn_length; lia). apply nth_error_firstn. lia.
Qed.

Lemma slice_get' {A} (m : list A) p n l i : slice m p n = Some l -> nth_error l i = if i <? n then nth_error m (p + i) else None.
Proof.
  intro H. destruct (Nat.ltb_spec i n); [now apply slice_get with n|]. apply nth_error_None. rewrite (slice_length _ _ _ _ H). lia.
Qed.
Lemma slice_bound {A} (m : list A) p n l : slice m p n = Some l -> p + n <= length m.
Proof. unfold slice. destruct (Nat.leb_spec (p + n) (length m)); [auto|discriminate]. Qed.

(** a loop that writes [L] from front to back *)
Lemma loop_replace {A} (val : nat -> list A -> option A) (m : list A) p (L : list A) :
  p + length L <= length m ->
  (forall i x m', nth_error L i = Some x -> length m' = length m ->
    (forall j, j < p \/ p + i <= j -> nth_error m' j = nth_error m j) -> val i m' = Some x) ->
  for_ 0 (length L) (fun i m => v <- val i m ;; aset m (p + i) v) m = Some (replace m p L).
Proof.
  intros Hb Hv.
  destruct (for_inv (fun i m' => length m' = length m /\ forall j, nth_error m' j = if (p <=? j) && (j <? p + i) then nth_error L (j - p) else nth_error m j)
    (fun i m => v <- val i m ;; aset m (p + i) v) 0 (length L) m) as [m' [E [HL HG]]].
  - lia.
  - split; [reflexivity|]. intro j. bd; auto; lia.
  - intros i m' Hi [HL HG]. destruct (nth_error_some L i) as [x Hx]; [lia|].
    rewrite (Hv i x m' Hx HL).
    + cbn [bind]. destruct (aset_some m' (p + i) x) as [m2 E2]; [lia|]. rewrite E2. exists m2. splits; auto.
      * rewrite (aset_length _ _ _ _ E2). exact HL.
      * intro j. rewrite (aset_get _ _ _ _ j E2), HG. destruct (Nat.eqb_spec j (p + i)) as [->|].
        -- replace (p + i - p) with i by lia. bd; auto; lia.
        -- bd; auto; lia.
    + intros j Hj. rewrite HG. bd; auto; lia.
  - rewrite E. f_equal. apply nth_error_ext. intro j. rewrite HG, replace_get by exact Hb. reflexivity.
Qed.

Lemma for_ext {S} (b1 b2 : nat -> S -> option S) lo hi s : (forall i s, b1 i s = b2 i s) -> for_ lo hi b1 s = for_ lo hi b2 s.
Proof. intro H. unfold for_. apply for_from_ext. intros; apply H. Qed.

(** in place *)
Lemma loop_map {A} (f : A -> option A) (m : list A) p n l l' :
  slice m p n = Some l -> Forall2 (fun x y => f x = Some y) l l' ->
  for_ 0 n (fun i m => x <- aget m (p + i) ;; v <- f x ;; aset m (p + i) v) m = Some (replace m p l').
Proof.
  intros HS HF. pose proof (slice_length _ _ _ _ HS) as HL. pose proof (slice_bound _ _ _ _ HS) as HB.
  assert (HL' : length l' = n) by (rewrite <- HL; clear -HF; induction HF; cbn; auto).
  rewrite (for_ext _ (fun i m => v <- (x <- aget m (p + i) ;; f x) ;; aset m (p + i) v)).
  2: { intros i m0. unfold bind, aget. destruct (nth_error m0 (p + i)); reflexivity. }
  rewrite <- HL'. apply (loop_replace (fun i m => x <- aget m (p + i) ;; f x)); [lia|].
  intros i x m' Hx Hm Hg. unfold aget. rewrite Hg by lia.
  assert (Hi : i < n) by (apply nth_error_lt in Hx; lia).
  rewrite <- (slice_get _ _ _ _ _ HS Hi). clear -HF Hx. revert i Hx. induction HF; intros [|i] Hx; cbn in *; try discriminate.
  - congruence.
  - apply IHHF. exact Hx.
Qed.

Lemma Forall2_map_total {A} (g : A -> A) l : Forall2 (fun x y => Some (g x) = Some y) l (map g l).
Proof. induction l; cbn; constructor; auto. Qed.

Lemma loop_map_total {A} (g : A -> A) (m : list A) p n l : slice m p n = Some l ->
  for_ 0 n (fun i m => x <- aget m (p + i) ;; aset m (p + i) (g x)) m = Some (replace m p (map g l)).
Proof.
  intro HS. rewrite <- (loop_map (fun x => Some (g x)) m p n l (map g l) HS (Forall2_map_total g l)). apply for_ext. reflexivity.
Qed.

(** from other arrays *)
Lemma readable_get {A} (m m' : list A) p q n k i : slice m q n = Some k -> readable q p n -> i < n ->
  (forall j, j < p \/ p + i <= j -> nth_error m' j = nth_error m j) -> aget m' (q + i) = nth_error k i.
Proof.
  intros HS HR Hi Hg. unfold aget. rewrite Hg by (unfold readable in HR; lia). symmetry. now apply slice_get with n.
Qed.

Lemma map2_nth {A B C} (f : A -> B -> C) a b i z : nth_error (map2 f a b) i = Some z ->
  exists x y, nth_error a i = Some x /\ nth_error b i = Some y /\ z = f x y.
Proof.
  unfold map2. revert b i. induction a as [|x a IH]; intros [|y b] [|i] H; cbn in *; try discriminate.
  - injection H as <-. eauto.
  - apply IH. exact H.
Qed.
Lemma map2_length {A B C} (f : A -> B -> C) a b : length (map2 f a b) = Nat.min (length a) (length b).
Proof. unfold map2. rewrite map_length, combine_length. reflexivity. Qed.

Lemma loop_map2 {A} (body : nat -> list A -> option (list A)) (f : A -> A -> A) (m : list A) p n qa qb a b :
  p + n <= length m -> slice m qa n = Some a -> slice m qb n = Some b -> readable qa p n -> readable qb p n ->
  (forall i m x y, aget m (qa + i) = Some x -> aget m (qb + i) = Some y -> body i m = aset m (p + i) (f x y)) ->
  for_ 0 n body m = Some (replace m p (map2 f a b)).
Proof.
  intros HB HA HBs RA RB Hbody. pose proof (slice_length _ _ _ _ HA) as LA. pose proof (slice_length _ _ _ _ HBs) as LB.
  assert (HL : length (map2 f a b) = n) by (rewrite map2_length; lia).
  assert (E : for_ 0 (length (map2 f a b)) (fun i m => v <- (x <- aget m (qa + i) ;; y <- aget m (qb + i) ;; Some (f x y)) ;; aset m (p + i) v) m
     = Some (replace m p (map2 f a b))).
  { apply (loop_replace (fun i m => x <- aget m (qa + i) ;; y <- aget m (qb + i) ;; Some (f x y))); [lia|].
    intros i z m' Hz Hm Hg. assert (Hi : i < n) by (apply nth_error_lt in Hz; lia).
    destruct (map2_nth _ _ _ _ _ Hz) as [x [y [Hx [Hy ->]]]].
    rewrite (readable_get m m' p qa n a i HA RA Hi Hg), Hx. cbn [bind].
    rewrite (readable_get m m' p qb n b i HBs RB Hi Hg), Hy. reflexivity. }
  rewrite HL in E. rewrite <- E.
  (* both loops agree along the run *)
  clear E. unfold for_. rewrite Nat.sub_0_r.
  assert (G : forall k lo m', lo + k = n -> length m' = length m ->
     (forall j, j < p \/ p + lo <= j -> nth_error m' j = nth_error m j) ->
     for_from lo k body m' = for_from lo k (fun i m => v <- (x <- aget m (qa + i) ;; y <- aget m (qb + i) ;; Some (f x y)) ;; aset m (p + i) v) m').
  { induction k as [|k IH]; intros lo m' Hk Hm Hg; [reflexivity|]. cbn [for_from].
    assert (Hi : lo < n) by lia.
    destruct (nth_error_some a lo) as [x Hx]; [lia|]. destruct (nth_error_some b lo) as [y Hy]; [lia|].
    pose proof (readable_get m m' p qa n a lo HA RA Hi Hg) as G1. rewrite Hx in G1.
    pose proof (readable_get m m' p qb n b lo HBs RB Hi Hg) as G2. rewrite Hy in G2.
    rewrite (Hbody lo m' x y G1 G2), G1. cbn [bind]. rewrite G2. cbn [bind].
    destruct (aset_some m' (p + lo) (f x y)) as [m2 E2]; [lia|]. rewrite E2. cbn [bind]. apply IH; [lia| |].
    - rewrite (aset_length _ _ _ _ E2). exact Hm.
    - intros j Hj. rewrite (aset_get _ _ _ _ j E2). destruct (Nat.eqb_spec j (p + lo)); [lia|]. apply Hg. lia. }
  apply (G n 0 m); auto.
Qed.

Lemma loop_map1 {A} (body : nat -> list A -> option (list A)) (f : A -> A) (m : list A) p n q a :
  p + n <= length m -> slice m q n = Some a -> readable q p n ->
  (forall i m x, aget m (q + i) = Some x -> body i m = aset m (p + i) (f x)) ->
  for_ 0 n body m = Some (replace m p (map f a)).
Proof.
  intros HB HA RA Hbody.
  rewrite (loop_map2 body (fun x _ => f x) m p n q q a a HB HA HA RA RA).
  - f_equal. f_equal. unfold map2. clear. induction a; cbn; congruence.
  - intros i m0 x y H _. now apply Hbody.
Qed.

Section Arr.
Set Default Proof Using "Type".
Variable V : Type.
Variable zero : V.
Variables (add mul sub : V -> V -> V) (div : V -> V -> option V) (lt : V -> V -> bool) (eq : V -> V -> bool).

Lemma scalar_ops (m : list V) p n l v : slice m p n = Some l ->
  arr_add V add m p n v = Some (replace m p (map (fun x => add x v) l)) /\
  arr_multiply V mul m p n v = Some (replace m p (map (fun x => mul x v) l)) /\
  arr_subtract V sub m p n v = Some (replace m p (map (fun x => sub x v) l)) /\
  arr_square V mul m p n = Some (replace m p (map (fun x => mul x x) l)) /\
  arr_set V m p n v = Some (replace m p (map (fun _ => v) l)) /\
  (forall l', Forall2 (fun x y => div x v = Some y) l l' -> arr_divide V div m p n v = Some (replace m p l')).
Proof.
  clear zero lt eq.
  intro HS. splits.
  - now apply loop_map_total.
  - now apply loop_map_total.
  - now apply loop_map_total.
  - apply (loop_map_total (fun x => mul x x)). exact HS.
  - pose proof (slice_bound _ _ _ _ HS). apply (loop_map1 _ (fun _ => v) m p n p l); auto. left. lia.
  - intros l' HF. now apply (loop_map (fun x => div x v)) with l.
Qed.

Lemma pair_ops (m : list V) p n l q k : slice m p n = Some l -> slice m q n = Some k -> readable q p n ->
  arr_add_pair V add m p n q = Some (replace m p (map2 add l k)) /\
  arr_multiply_pair V mul m p n q = Some (replace m p (map2 mul l k)) /\
  arr_subtract_pair V sub m p n q = Some (replace m p (map2 sub l k)).
Proof.
  clear zero div lt eq.
  intros HS HK HR. pose proof (slice_bound _ _ _ _ HS).
  assert (R : readable p p n) by (left; lia).
  splits; eapply loop_map2; eauto; intros i m0 x y H1 H2; rewrite H1; cbn [bind]; rewrite H2; reflexivity.
Qed.

Lemma divide_pair (m : list V) p n l q k (d : V -> V -> V) : slice m p n = Some l -> slice m q n = Some k -> readable q p n ->
  Forall2 (fun x y => div x y = Some (d x y)) l k -> arr_divide_pair V div m p n q = Some (replace m p (map2 d l k)).
Proof.
  clear zero add mul sub lt eq.
  intros HS HK HR HF. pose proof (slice_bound _ _ _ _ HS). pose proof (slice_length _ _ _ _ HS) as LA. pose proof (slice_length _ _ _ _ HK) as LB.
  unfold arr_divide_pair.
  assert (HL : length (map2 d l k) = n) by (rewrite map2_length; lia).
  rewrite (for_ext _ (fun i m => v <- (x <- aget m (p + i) ;; y <- aget m (q + i) ;; div x y) ;; aset m (p + i) v)).
  2: { intros i m0. unfold bind. destruct (aget m0 (p + i)); [|reflexivity]. destruct (aget m0 (q + i)); reflexivity. }
  rewrite <- HL at 1. apply (loop_replace (fun i m => x <- aget m (p + i) ;; y <- aget m (q + i) ;; div x y)); [lia|].
  intros i z m' Hz Hm Hg. assert (Hi : i < n) by (apply nth_error_lt in Hz; lia).
  destruct (map2_nth _ _ _ _ _ Hz) as [x [y [Hx [Hy ->]]]].
  rewrite (readable_get m m' p p n l i HS) by (auto; left; lia). rewrite Hx. cbn [bind].
  rewrite (readable_get m m' p q n k i HK HR Hi Hg), Hy. cbn [bind].
  clear -HF Hx Hy. revert i Hx Hy. induction HF; intros [|i] Hx Hy; cbn in *; try discriminate; [congruence|eauto].
Qed.

Lemma copy_correct (m : list V) q n k p : slice m q n = Some k -> p + n <= length m -> readable q p n ->
  arr_copy V m q n p = Some (replace m p k).
Proof.
  clear zero add mul sub div lt eq.
  intros HK HB HR. unfold arr_copy. rewrite (loop_map1 _ (fun x => x) m p n q k); auto.
  - now rewrite map_id.
  - intros i m0 x ->. reflexivity.
Qed.

Lemma logic_ops (m : list V) a b n la lb out limit :
  slice m a n = Some la -> slice m b n = Some lb -> out + n <= length m -> readable a out n -> readable b out n ->
  arr_or V lt m a b n limit out = Some (replace m out (map2 (or_spec lt limit) la lb)) /\
  arr_xor V zero lt m a b n limit out = Some (replace m out (map2 (xor_spec zero lt limit) la lb)) /\
  (* only a is compared *)
  arr_and V zero lt m a b n limit out = Some (replace m out (map2 (fun x y => if negb (lt x limit) then y else zero) la lb)).
Proof.
  clear add mul sub div eq.
  intros HA HB HO RA RB. splits.
  - eapply loop_map2; eauto. intros i m0 x y H1 H2. rewrite H1. cbn [bind]. unfold or_spec.
    destruct (lt x limit); cbn [andb]; [|reflexivity]. rewrite H2. cbn [bind]. destruct (lt y limit); reflexivity.
  - eapply loop_map2; eauto. intros i m0 x y H1 H2. rewrite H1. cbn [bind]. rewrite H2. cbn [bind]. unfold xor_spec.
    destruct (lt x limit), (lt y limit); reflexivity.
  - eapply loop_map2; eauto. intros i m0 x y H1 H2. rewrite H1. cbn [bind].
    destruct (lt x limit); cbn [andb negb]; [reflexivity|]. rewrite H2. reflexivity.
Qed.

(** reverse: the values end up one position too far *)
Lemma reverse_shifted (m : list V) q n k p : slice m q n = Some k -> p + n < length m ->
  disjoint q n (p + 1) n -> arr_reverse V m q n p = Some (replace m (p + 1) (rev k)).
Proof.
  clear zero add mul sub div lt eq.
  intros HK HB HD. pose proof (slice_length _ _ _ _ HK) as HL. unfold arr_reverse.
  destruct (for_inv (fun i m' => length m' = length m /\ forall j, nth_error m' j = if (p + n - i <? j) && (j <=? p + n) then nth_error k (p + n - j) else nth_error m j)
    (fun i m => x <- aget m (q + i) ;; aset m (p + (n - i)) x) 0 n m) as [m' [E [HL' HG]]].
  - lia.
  - split; [reflexivity|]. intro j. bd; auto; lia.
  - intros i m' Hi [HLm HG]. unfold aget. rewrite HG.
    destruct (nth_error_some k i) as [x Hx]; [lia|].
    assert (Hq : nth_error m (q + i) = Some x) by (rewrite <- Hx; symmetry; apply slice_get with n; auto; lia).
    unfold disjoint in HD.
    replace ((p + n - i <? q + i) && (q + i <=? p + n)) with false by (bd; auto; lia). rewrite Hq. cbn [bind].
    destruct (aset_some m' (p + (n - i)) x) as [m2 E2]; [lia|]. rewrite E2. exists m2. splits; auto.
    + rewrite (aset_length _ _ _ _ E2). exact HLm.
    + intro j. rewrite (aset_get _ _ _ _ j E2), HG. destruct (Nat.eqb_spec j (p + (n - i))) as [->|].
      * replace (p + n - (p + (n - i))) with i by lia. bd; auto; lia.
      * bd; auto; lia.
  - rewrite E. f_equal. apply nth_error_ext. intro j. rewrite HG, replace_get by (rewrite rev_length; lia). rewrite rev_length, HL.
    destruct (Nat.leb_spec (p + 1) j); cbn [andb].
    + destruct (Nat.ltb_spec j (p + 1 + n)); [|bd; auto; lia].
      replace ((p + n - n <? j) && (j <=? p + n)) with true by (bd; auto; lia).
      assert (Hj : j - (p + 1) < length k) by lia.
      destruct (nth_error_some k (p + n - j)) as [x Hx]; [lia|]. rewrite Hx. symmetry.
      rewrite (nth_error_nth' _ x) by (rewrite rev_length; lia). f_equal. rewrite rev_nth by lia.
      replace (length k - S (j - (p + 1))) with (p + n - j) by lia. apply nth_error_nth with (1 := Hx).
    + bd; auto; lia.
Qed.

(** cusum *)
Lemma cusum_correct (m : list V) q n x0 rest p :
  slice m q n = Some (x0 :: rest) -> p + n <= length m -> readable q p n ->
  arr_cusum V add m q n p = Some (replace m p (sums add x0 rest)).
Proof.
  clear zero mul sub div lt eq.
  intros HK HB HR. pose proof (slice_length _ _ _ _ HK) as HL. cbn in HL. unfold arr_cusum.
  assert (G : forall i, i < n -> nth_error m (q + i) = nth_error (x0 :: rest) i) by (intros i Hi; symmetry; now apply slice_get with n).
  assert (G0 : aget m q = Some x0) by (unfold aget; rewrite <- (Nat.add_0_r q), G by lia; reflexivity).
  rewrite G0. cbn [bind].
  destruct (aset_some m p x0) as [m1 E1]; [lia|]. rewrite E1. cbn [bind].
  assert (HS : forall i, i < n -> nth_error (sums add x0 rest) i = Some (fold_left add (firstn i rest) x0)).
  { intros i Hi. unfold sums. rewrite map_nth_error_seq by lia. reflexivity. }
  assert (LS : length (sums add x0 rest) = n) by (unfold sums; rewrite map_length, seq_length; lia).
  destruct (for_inv (fun i '(s, m') => length m' = length m /\ s = fold_left add (firstn (i - 1) rest) x0 /\
     forall j, nth_error m' j = if (p <=? j) && (j <? p + i) then nth_error (sums add x0 rest) (j - p) else nth_error m j)
    (fun i '(sum, m) => x <- aget m (q + i) ;; m <- aset m (p + i) (add sum x) ;; Some (add sum x, m)) 1 n (x0, m1)) as [[s m'] [E [HL' [_ HG]]]].
  - lia.
  - splits; auto.
    + rewrite (aset_length _ _ _ _ E1). reflexivity.
    + intro j. rewrite (aset_get _ _ _ _ j E1). destruct (Nat.eqb_spec j p) as [->|]; [|bd; auto; lia].
      rewrite Nat.sub_diag, HS by lia. bd; auto; lia.
  - intros i [s m'] Hi [HLm [Hs HG]]. unfold aget. rewrite HG.
    replace ((p <=? q + i) && (q + i <? p + i)) with false by (unfold readable in HR; bd; auto; lia).
    rewrite G by lia. destruct i as [|i]; [lia|]. cbn [nth_error].
    destruct (nth_error_some rest i) as [x Hx]; [lia|]. rewrite Hx. cbn [bind].
    destruct (aset_some m' (p + S i) (add s x)) as [m2 E2]; [lia|]. rewrite E2. cbn [bind]. exists (add s x, m2). 
    assert (Hsum : add s x = fold_left add (firstn (S i) rest) x0).
    { rewrite Hs. replace (S i - 1) with i by lia.
      assert (Hf : firstn (S i) rest = firstn i rest ++ [x]).
      { clear -Hx. revert i Hx. induction rest as [|y r IH]; intros [|i] Hx; cbn in *; try discriminate; [congruence|]. now rewrite <- IH. }
      rewrite Hf, fold_left_app. reflexivity. }
    split; [reflexivity|]. split; [|split].
    + rewrite (aset_length _ _ _ _ E2). exact HLm.
    + rewrite Nat.sub_succ, Nat.sub_0_r. exact Hsum.
    + intro j. rewrite (aset_get _ _ _ _ j E2), HG. destruct (Nat.eqb_spec j (p + S i)) as [->|].
      * replace (p + S i - p) with (S i) by lia. rewrite HS by lia. rewrite Hsum. bd; auto; lia.
      * bd; auto; lia.
  - rewrite E. cbn [bind]. f_equal. apply nth_error_ext. intro j. rewrite HG, replace_get by lia. rewrite LS. reflexivity.
Qed.

Lemma differences_length x0 (rest : list V) : length (differences sub x0 rest) = length rest.
Proof.
  clear zero add mul div lt eq.
revert x0. induction rest; cbn; intro; auto. Qed.
Lemma differences_nth rest : forall x0 i y, nth_error (differences sub x0 rest) i = Some y ->
  exists a b, nth_error (x0 :: rest) i = Some a /\ nth_error (x0 :: rest) (S i) = Some b /\ y = sub b a.
Proof.
  clear zero add mul div lt eq.
  induction rest as [|x1 rest IH]; intros x0 [|i] y H; cbn in H; try discriminate.
  - injection H as <-. exists x0, x1. auto.
  - destruct (IH x1 i y H) as [a [b [A [B C]]]]. exists a, b. auto.
Qed.

Lemma differences_correct (m : list V) q n x0 rest p :
  slice m q n = Some (x0 :: rest) -> p + (n - 1) <= length m -> readable q p n ->
  arr_differences V sub m q n p = Some (replace m p (differences sub x0 rest)).
Proof.
  clear zero add mul div lt eq.
  intros HK HB HR. pose proof (slice_length _ _ _ _ HK) as HL. cbn in HL. unfold arr_differences.
  assert (E : for_ 1 n (fun i m => x <- aget m (q + i) ;; y <- aget m (q + (i - 1)) ;; aset m (p + (i - 1)) (sub x y)) m =
    for_ 0 (n - 1) (fun i m => v <- (x <- aget m (q + S i) ;; y <- aget m (q + i) ;; Some (sub x y)) ;; aset m (p + i) v) m).
  { unfold for_. rewrite Nat.sub_0_r. generalize (n - 1) as k, m. clear. intro k.
    assert (G : forall k lo (m : list V), for_from (S lo) k (fun i m => x <- aget m (q + i) ;; y <- aget m (q + (i - 1)) ;; aset m (p + (i - 1)) (sub x y)) m =
      for_from lo k (fun i m => v <- (x <- aget m (q + S i) ;; y <- aget m (q + i) ;; Some (sub x y)) ;; aset m (p + i) v) m).
    { clear. induction k as [|k IH]; intros lo m; [reflexivity|]. cbn [for_from]. replace (S lo - 1) with lo by lia.
      destruct (aget m (q + S lo)); [|reflexivity]. destruct (aget m (q + lo)); [|reflexivity]. cbn [bind].
      destruct (aset m (p + lo) _); [|reflexivity]. cbn [bind]. apply IH. }
    intro m. apply G. }
  rewrite E. replace (n - 1) with (length (differences sub x0 rest)) by (rewrite differences_length; lia).
  apply (loop_replace (fun i m => x <- aget m (q + S i) ;; y <- aget m (q + i) ;; Some (sub x y))).
  { rewrite differences_length. lia. }
  intros i y m' Hy Hm Hg. destruct (differences_nth _ _ _ _ Hy) as [a [b [A [B ->]]]].
  assert (Hi : S i < n) by (apply nth_error_lt in B; cbn in B; lia).
  unfold aget. rewrite (Hg (q + S i)) by (unfold readable in HR; lia). rewrite (Hg (q + i)) by (unfold readable in HR; lia).
  rewrite <- !(slice_get _ _ _ _ _ HK) by lia. rewrite A, B. reflexivity.
Qed.

(** inverse laws, in exact arithmetic *)
Hypothesis sub_add : forall x y, sub (add x y) x = y.
Hypothesis add_sub : forall x y, add x (sub y x) = y.

Lemma sums_cons x0 x1 rest : sums add x0 (x1 :: rest) = x0 :: sums add (add x0 x1) rest.
Proof.
  clear sub_add add_sub zero mul sub div lt eq.
  unfold sums. cbn [length]. rewrite <- cons_seq. cbn [map firstn fold_left]. f_equal. rewrite <- seq_shift, map_map. apply map_ext. reflexivity.
Qed.
Lemma sums_nil x0 : sums add x0 [] = [x0].
Proof.
  clear sub_add add_sub zero mul sub div lt eq.
reflexivity. Qed.

Lemma sums_head rest : forall x0, exists t, sums add x0 rest = x0 :: t.
Proof.
  clear sub_add add_sub zero mul sub div lt eq.
intro x0. unfold sums. rewrite <- cons_seq. cbn. eauto. Qed.

Lemma differences_of_sums rest : forall x0 t, sums add x0 rest = x0 :: t -> differences sub x0 t = rest.
Proof using sub_add. clear add_sub zero mul div lt eq.
  induction rest as [|x1 rest IH]; intros x0 t H.
  - rewrite sums_nil in H. injection H as <-. reflexivity.
  - rewrite sums_cons in H. injection H as <-. destruct (sums_head rest (add x0 x1)) as [t Ht]. rewrite Ht. cbn [differences].
    rewrite sub_add. f_equal. now apply IH.
Qed.

Lemma sums_of_differences rest : forall x0, sums add x0 (differences sub x0 rest) = x0 :: rest.
Proof using add_sub. clear sub_add zero mul div lt eq.
  induction rest as [|x1 rest IH]; intro x0; [reflexivity|]. cbn [differences]. rewrite sums_cons, add_sub. now rewrite IH.
Qed.
End Arr.

(** times *)
Lemma t_sub_saturates x y : word x -> word y -> t_sub x y = Z.max 0 (x - y).
Proof.
  unfold word, t_sub, two32. intros. destruct (Z.ltb_spec y x); [|lia]. rewrite u32_small by (unfold two32; lia). lia.
Qed.

Lemma limit_correct (m : list Z) a n la lim out : slice m a n = Some la -> out + n <= length m -> readable a out n ->
  times_limit m a n lim out = Some (replace m out (map (fun x => Z.min x lim) la)).
Proof.
  intros HA HO HR. unfold times_limit. eapply loop_map1; eauto. intros i m0 x ->. cbn [bind]. f_equal.
  destruct (Z.ltb_spec lim x); lia.
Qed.
