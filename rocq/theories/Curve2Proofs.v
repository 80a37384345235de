(** Proofs about sp_path_samples with curves. *)
From Coq Require Import QArith Qround Qabs Lqa.
From Verif Require Import Base PathModel PathSpec PathProofs Path2Proofs Path3Proofs BezProofs CurveProofs.
Close Scope Q_scope.

Lemma shows_from a ya l pcs : shows a ya l pcs -> forall i a' ya', nth_error ((a, ya) :: map fst l) i = Some (a', ya') -> (a <= a')%Z.
Proof.
  induction 1 as [a ya|a ya b yb c l p pcs h1 h2 h3 h4 h5 IH]; intros [|i] a' ya' hi; cbn [nth_error map fst] in hi; try (injection hi as <- <-; lia); try (destruct i; discriminate).
  specialize (IH i a' ya' hi). lia.
Qed.
Lemma shows_get a ya l pcs : shows a ya l pcs -> forall i a' ya' b yb c k, nth_error ((a, ya) :: map fst l) i = Some (a', ya') -> nth_error l i = Some (b, yb, c) -> (a' <= k < b)%Z ->
  exists r, piece_at pcs k = Some r /\ sampled (inject_Z a', ya') (inject_Z b, yb) c k (value r k).
Proof.
  induction 1 as [a ya|a ya b yb c l p pcs h1 h2 h3 h4 h5 IH]; intros [|i] a' ya' b' yb' c' k ha hb hk; try discriminate; cbn [nth_error map fst] in ha, hb.
  - injection ha as <- <-. injection hb as <- <- <-. exists p. unfold piece_at. cbn [find]. replace ((from p <=? k)%Z && (k <? upto p)%Z) with true by lia. auto.
  - destruct (IH i a' ya' b' yb' c' k ha hb hk) as (r & e & hr). exists r. split; [|exact hr]. unfold piece_at in *. cbn [find]. pose proof (shows_from _ _ _ _ h5 i a' ya' ha). replace ((from p <=? k)%Z && (k <? upto p)%Z) with false by lia. exact e.
Qed.
Lemma shows_upto a ya l pcs : shows a ya l pcs -> forall p, In p pcs -> (upto p <= final a l)%Z.
Proof.
  intros h. assert (hle : (a <= final a l)%Z) by (induction h; cbn [final] in *; lia). induction h as [a ya|a ya b yb c l p pcs h1 h2 h3 h4 h5 IH]; intros p' hp; [destruct hp|]. cbn [final] in *.
  assert (hle' : (b <= final b l)%Z) by (clear -h5; induction h5; cbn [final] in *; lia). destruct hp as [<-|hp]; [lia|]. apply IH; auto.
Qed.
Lemma combine_get {A B} (l : list A) : forall (l' : list B) j u v, nth_error l j = Some u -> nth_error l' j = Some v -> nth_error (combine l l') j = Some (u, v).
Proof. induction l as [|u l IH]; intros [|v l'] [|j] u' v' h1 h2; cbn in *; try discriminate; try congruence. apply IH; assumption. Qed.
Lemma combine_inv {A B} (l : list A) : forall (l' : list B) j u v, nth_error (combine l l') j = Some (u, v) -> nth_error l j = Some u /\ nth_error l' j = Some v.
Proof. induction l as [|u l IH]; intros [|v l'] [|j] u' v' h; cbn in *; try discriminate; [injection h as <- <-; auto|]. apply IH; assumption. Qed.

Lemma samples_segments_any size n xs y0 ys cs : 2 <= n <= 24 -> length ys = n - 1 -> length xs = n - 2 -> length cs = n - 1 -> forall yn cn, nth_error (y0 :: ys) (n - 1) = Some yn -> nth_error cs (n - 1 - 1) = Some cn ->
  exists segs0 segs1 segs2, aset (repeat (mkseg 0 [] Move NoPrepare) 24) 0 (seg_move 0 y0) = Some segs0 /\ aset segs0 (n - 1) (path_segment (inject_Z size) yn cn) = Some segs1 /\
    for_ 1 (n - 1) (fun i segs => xn <- aget (map inject_Z xs) (i - 1) ;; yn <- aget (y0 :: ys) i ;; cn <- curve_at (Some cs) (i - 1) ;; aset segs i (path_segment xn yn cn)) segs1 = Some segs2 /\
    slice segs2 0 n = Some (seg_move 0 y0 :: map seg_of (combine (combine (xs ++ [size]) ys) cs)).
Proof.
  intros hn hy hx hc yn cn en ec. destruct (aset_some (repeat (mkseg 0 [] Move NoPrepare) 24) 0 (seg_move 0 y0)) as [s0 es0]; [rewrite repeat_length; lia|]. pose proof (aset_length _ _ _ _ es0) as l0. rewrite repeat_length in l0.
  destruct (aset_some s0 (n - 1) (path_segment (inject_Z size) yn cn)) as [s1 es1]; [lia|]. pose proof (aset_length _ _ _ _ es1) as l1. rewrite l0 in l1. exists s0, s1.
  destruct (for_inv (fun m s2 => length s2 = 24 /\ nth_error s2 0 = Some (seg_move 0 y0) /\ nth_error s2 (n - 1) = Some (path_segment (inject_Z size) yn cn) /\ forall i, i < m - 1 -> exists a b c, nth_error xs i = Some a /\ nth_error ys i = Some b /\ nth_error cs i = Some c /\ nth_error s2 (S i) = Some (path_segment (inject_Z a) b c))
    (fun i segs => xn <- aget (map inject_Z xs) (i - 1) ;; yn <- aget (y0 :: ys) i ;; cn <- curve_at (Some cs) (i - 1) ;; aset segs i (path_segment xn yn cn)) 1 (n - 1) s1) as (s2 & es2 & l2 & g0 & g1 & g2).
  - lia.
  - splits; [exact l1| | |intros; lia].
    + rewrite (aset_get _ _ _ _ 0 es1). replace (0 =? n - 1) with false by lia. rewrite (aset_get _ _ _ _ 0 es0). reflexivity.
    + rewrite (aset_get _ _ _ _ (n - 1) es1), Nat.eqb_refl. reflexivity.
  - intros i s2 hi (l2 & g0 & g1 & g2). destruct i as [|i]; [lia|]. replace (S i - 1) with i by lia. destruct (nth_error_some xs i) as [a ea]; [lia|]. destruct (nth_error_some ys i) as [b eb]; [lia|]. destruct (nth_error_some cs i) as [v ev]; [lia|].
    unfold aget at 1. rewrite nth_error_map, ea. cbn [option_map bind]. unfold aget at 1. change (nth_error (y0 :: ys) (S i)) with (nth_error ys i). rewrite eb. cbn [bind]. cbn [curve_at]. unfold aget at 1. rewrite ev. cbn [bind]. destruct (aset_some s2 (S i) (path_segment (inject_Z a) b v)) as [s3 es3]; [lia|]. exists s3. split; [exact es3|]. splits.
    + rewrite (aset_length _ _ _ _ es3). exact l2.
    + rewrite (aset_get _ _ _ _ 0 es3). exact g0.
    + rewrite (aset_get _ _ _ _ _ es3). replace (n - 1 =? S i) with false by lia. exact g1.
    + intros i' hi'. rewrite (aset_get _ _ _ _ (S i') es3). destruct (Nat.eqb_spec (S i') (S i)) as [e|hne]; [|apply g2; lia]. injection e as ->. exists a, b, v. splits; auto.
  - exists s2. splits; auto. unfold slice. replace (0 + n <=? length s2) with true by lia. cbn [skipn]. f_equal. apply nth_error_ext. intros i. destruct (Nat.lt_ge_cases i n) as [hi|hi].
    + rewrite nth_error_firstn by lia. destruct i as [|i]; [exact g0|].
      change (nth_error (seg_move 0 y0 :: map seg_of (combine (combine (xs ++ [size]) ys) cs)) (S i)) with (nth_error (map seg_of (combine (combine (xs ++ [size]) ys) cs)) i). rewrite nth_error_map. destruct (Nat.eq_dec (S i) (n - 1)) as [he|he].
      * rewrite (combine_get (combine (xs ++ [size]) ys) cs i (size, yn) cn); [rewrite he; exact g1| |replace i with (n - 1 - 1) by lia; exact ec]. apply combine_get; [rewrite nth_error_app2 by lia; replace (i - length xs) with 0 by lia; reflexivity|]. rewrite <- he in en. exact en.
      * destruct (g2 i ltac:(lia)) as (a & b & v & ha & hb & hv & hs). rewrite (combine_get (combine (xs ++ [size]) ys) cs i (a, b) v); [exact hs| |exact hv]. apply combine_get; [|exact hb]. rewrite nth_error_app1 by lia. exact ha.
    + rewrite nth_error_firstn_ge by lia. symmetry. apply nth_error_None. cbn [length]. rewrite map_length, !combine_length, app_length. cbn [length]. lia.
Qed.

Lemma supported_all : forall zs a ya ys cs, increasing (a :: zs) -> (forall z, In z zs -> z < two32)%Z -> length ys = length zs -> length cs = length zs ->
  (forall i p q c, nth_error (combine (map inject_Z (a :: zs)) (ya :: ys)) i = Some p -> nth_error (combine (map inject_Z (a :: zs)) (ya :: ys)) (S i) = Some q -> nth_error cs i = Some c -> gentle p q c) ->
  supported a ya (combine (combine zs ys) cs).
Proof.
  induction zs as [|z zs IH]; intros a ya [|yb ys] [|c cs] hi hz hy hc hg; try discriminate; [exact I|]. cbn [combine supported]. destruct hi as [h1 h2]. splits.
  - exact h1.
  - apply hz. cbn; auto.
  - apply (hg 0 (inject_Z a, ya) (inject_Z z, yb) c); reflexivity.
  - apply IH; auto; [intros; apply hz; cbn; auto|]. intros i p q c' hp hq hc'. apply (hg (S i) p q c' hp hq hc').
Qed.
Lemma final_last : forall zs a ys cs, length ys = length zs -> length cs = length zs -> final a (combine (combine zs ys) cs) = last zs a.
Proof. induction zs as [|z zs IH]; intros a [|yb ys] [|c cs] h1 h2; try discriminate; [reflexivity|]. cbn [combine final]. rewrite last_cons. apply IH; auto. Qed.
Lemma increasing_last l : forall a, increasing (a :: l) -> (forall z, In z (a :: l) -> z <= last l a)%Z.
Proof. induction l as [|b l IH]; intros a h z hz; [destruct hz as [<-|[]]; cbn; lia|]. destruct h as [h1 h2]. rewrite last_cons. specialize (IH b h2). destruct hz as [<-|hz]; [specialize (IH b (or_introl eq_refl)); lia|apply IH; exact hz]. Qed.

Lemma path_samples_curves root fuel size n xs y cs : (forall r, (0 < r)%Q -> ~ (root r == 0)%Q) -> 2 <= n <= 24 -> length y = n -> length xs = n - 2 -> length cs = n - 1 -> increasing (0%Z :: xs ++ [size]) -> (size < two32)%Z -> S (Z.to_nat (2 * size)) <= fuel ->
  (forall i p q c, nth_error (knots size (map inject_Z xs) y) i = Some p -> nth_error (knots size (map inject_Z xs) y) (S i) = Some q -> nth_error cs i = Some c -> gentle p q c) ->
  exists out, path_samples root fuel size n (map inject_Z xs) y (Some cs) = Some (true, out) /\ length out = Z.to_nat size /\
    forall i p q c k, nth_error (knots size (map inject_Z xs) y) i = Some p -> nth_error (knots size (map inject_Z xs) y) (S i) = Some q -> nth_error cs i = Some c -> (px p <= inject_Z (Z.of_nat k) < px q)%Q ->
      exists v, nth_error out k = Some v /\ sampled p q c (Z.of_nat k) v.
Proof.
  intros hroot hn hy hx hc hi hsz hf hg. destruct y as [|y0 ys]; [cbn in hy; lia|]. cbn [length] in hy. set (zs := xs ++ [size]) in *.
  assert (hz : length zs = n - 1) by (unfold zs; rewrite app_length; cbn; lia).
  assert (ek : knots size (map inject_Z xs) (y0 :: ys) = combine (map inject_Z (0%Z :: zs)) (y0 :: ys)) by (unfold knots, zs; cbn [map]; rewrite map_app; reflexivity). rewrite ek in *.
  assert (hlast : last zs 0%Z = size) by (unfold zs; apply last_last).
  assert (hmax : forall z, In z (0%Z :: zs) -> (z <= size)%Z) by (intros z hin; rewrite <- hlast; apply (increasing_last _ _ hi z hin)).
  assert (hs : supported 0 y0 (combine (combine zs ys) cs)). { apply supported_all; auto; try lia. intros z hin. specialize (hmax z (or_intror hin)). lia. }
  assert (hfin : final 0 (combine (combine zs ys) cs) = size) by (rewrite final_last by lia; exact hlast). assert (hsize : (0 <= size)%Z) by (apply hmax; cbn; auto).
  destruct (pieces_curves root fuel hroot (combine (combine zs ys) cs) 0 y0 ltac:(lia) hs ltac:(rewrite hfin; exact hf)) as (segs & pcs & e & hp & hsh).
  unfold path_samples. destruct (nth_error_some (y0 :: ys) (n - 1)) as [yn en]; [cbn; lia|]. destruct (nth_error_some cs (n - 1 - 1)) as [cn ec]; [lia|].
  unfold aget at 1. rewrite en. cbn [bind]. rewrite (proj2 (Nat.leb_le 1 (n - 1))) by lia. cbn [need bind curve_at]. unfold aget at 1. rewrite ec. cbn [bind]. unfold aget at 1. cbn [nth_error bind].
  destruct (samples_segments_any size n xs y0 ys cs hn ltac:(lia) hx hc yn cn en ec) as (s0 & s1 & s2 & es0 & es1 & es2 & es3). rewrite es0. cbn [bind]. rewrite es1. cbn [bind]. cbn [curve_at] in es2. rewrite es2. cbn [bind]. rewrite es3. cbn [bind].
  unfold path_set. cbn [prepare_segments seg_move points aset bind run_prepare points_count generate PathModel.prepare aget nth_error Nat.sub]. change (0%Q, y0) with (inject_Z 0, y0). fold zs. rewrite e. cbn [bind].
  set (m := mkseg 2 [zero; (inject_Z 0, y0); zero; zero] Move NoPrepare). set (pp := mkpiece 0 0 (fun _ => 0%Q) :: pcs).
  assert (hpp : pieces false fuel 0 (m :: segs) pp).
  { change 0%Z with (from (mkpiece 0 0 (fun _ => 0%Q))) at 1. apply pieces_cons; cbn [from upto]; [lia| | |exact hp].
    - exists zero, (inject_Z 0, y0). splits; reflexivity.
    - apply draws_move; [reflexivity|intros; reflexivity]. }
  assert (hne : forall p, In p pp -> (from p < upto p -> from p < size)%Z). { intros p [<-|hin] hlt; [cbn in hlt; lia|]. pose proof (shows_upto _ _ _ _ hsh p hin). lia. }
  destruct (path_get_spec false fuel _ _ hpp fuel 0 size 0 0 0 0 (repeat 0%Q (Z.to_nat size)) ltac:(lia) ltac:(lia) (or_intror (conj eq_refl hne)) ltac:(cbn; lia) ltac:(constructor) ltac:(lia) ltac:(rewrite repeat_length; lia)) as (out & c' & eo & q1 & q2 & q3 & q4).
  rewrite eo. cbn [bind]. exists out. split; [reflexivity|]. rewrite repeat_length in q1. split; [exact q1|].
  intros i p q c k hpi hqi hci hk. destruct p as [pa pya], q as [qb qyb]. apply combine_inv in hpi as [hp1 hp2]. assert (hqi' : nth_error (combine (map inject_Z (0%Z :: zs)) (y0 :: ys)) (S i) = Some (qb, qyb)) by exact hqi. apply combine_inv in hqi' as [hq1 hq2].
  rewrite nth_error_map in hp1, hq1. destruct (nth_error (0%Z :: zs) i) as [a'|] eqn:ea; [|discriminate]. destruct (nth_error (0%Z :: zs) (S i)) as [b'|] eqn:eb; [|discriminate]. cbn [option_map] in hp1, hq1. injection hp1 as <-. injection hq1 as <-. cbn [px fst] in hk. rewrite <- Zle_Qle, <- Zlt_Qlt in hk.
  assert (hks : (b' <= size)%Z) by (apply hmax, (nth_error_In _ (S i)), eb).
  assert (hcl : i < length cs) by (apply (nth_error_lt _ _ _ hci)).
  destruct (shows_get 0 y0 _ _ hsh i a' pya b' qyb c (Z.of_nat k)) as (r & er & hr); [| |lia|].
  - destruct i as [|i]; [cbn in *; congruence|]. cbn [nth_error map] in *. rewrite nth_error_map. destruct (nth_error_some cs i) as [ci eci]; [lia|]. rewrite (combine_get (combine zs ys) cs i (a', pya) ci); [reflexivity| |exact eci]. apply combine_get; assumption.
  - apply combine_get; [|exact hci]. apply combine_get; assumption.
  - specialize (q4 k). rewrite Z.sub_0_r in q4. replace ((0 <=? k) && (k <? 0 + Z.to_nat size)) with true in q4 by lia. rewrite Nat.sub_0_r in q4. replace (0 + Z.of_nat k)%Z with (Z.of_nat k) in q4 by lia.
    assert (ep : piece_at pp (Z.of_nat k) = Some r). { unfold piece_at, pp. cbn [find from upto]. replace ((0 <=? Z.of_nat k)%Z && (Z.of_nat k <? 0)%Z) with false by lia. exact er. }
    rewrite ep in q4. destruct (nth_error out k) as [v|]; [|contradiction]. exists v. split; [reflexivity|]. cbn [oeq] in q4. unfold sampled in *. destruct (qlt c (1 # 100000)); [rewrite q4; exact hr|]. destruct hr as (t & t1 & t2 & t3). exists t. splits; [apply t1|apply t1|exact t2|]. rewrite q4. exact t3.
Qed.
