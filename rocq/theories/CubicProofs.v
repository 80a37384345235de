(** Proofs about cubic curves. *)
From Coq Require Import QArith Qround Qabs Lqa.
From Verif Require Import Base PathModel PathSpec CubicSpec PathProofs Path2Proofs BezProofs.
Close Scope Q_scope.

(** ** curves that are sampled with gaps of at most one position *)

Section Gaps.
Variable interpolator : Q -> Q -> list point -> (point -> Q) -> option Q.
Variables (a b : Z) (ya : Q) (ps : list point) (s_size : Q) (xz : nat -> Z) (yq : nat -> Q).
Hypothesis hab : (0 <= a < b)%Z.
Hypothesis hb : (b < two32)%Z.
Let N := Z.to_nat (2 * (b - a)).
Hypothesis xz_0 : xz 0 = a.
Hypothesis xz_N : xz N = b.
Hypothesis xz_step : forall i, S i <= N -> (xz i <= xz (S i) <= xz i + 2)%Z.
Hypothesis x_at_eq : forall i, i <= N -> x_at interpolator ps s_size i = Some (xz i).
Hypothesis y_at_eq : forall i, at_index interpolator ps s_size i py = Some (yq i).
Hypothesis y_0 : (yq 0 == ya)%Q.

Lemma gz_mono i j : i <= j <= N -> (xz i <= xz j)%Z.
Proof using xz_step. intros [h1 h2]. clear -h1 h2 xz_step. induction h1 as [|j h1 IH]; [lia|]. pose proof (xz_step j h2). specialize (IH ltac:(lia)). lia. Qed.
Lemma gz_range i : i <= N -> (a <= xz i <= b)%Z.
Proof using xz_0 xz_N xz_step. clear -xz_0 xz_N xz_step. intros hi. pose proof (gz_mono 0 i ltac:(lia)). pose proof (gz_mono i N ltac:(lia)). rewrite xz_0 in *. rewrite xz_N in *. lia. Qed.

Definition good (k : Z) (v : Q) : Prop :=
  (exists i, i <= N /\ xz i = k /\ (v == yq i)%Q) \/ (exists i j, i <= N /\ j <= N /\ xz i = (k - 1)%Z /\ xz j = (k + 1)%Z /\ (v == (yq i + yq j) / 2)%Q).
Lemma good_comp k v w : (v == w)%Q -> good k v -> good k w.
Proof. intros e [(i & h1 & h2 & h3)|(i & j & h1 & h2 & h3 & h4 & h5)]; [left; exists i|right; exists i, j]; splits; auto; rewrite <- e; assumption. Qed.

Variables (o : nat) (out0 : list Q).
Hypothesis ho : o + Z.to_nat (b - a) <= length out0.
Definition done (i : nat) (out : list Q) : Prop :=
  length out = length out0 /\
  (forall j, (o <=? j) && (j <? o + Z.to_nat (Z.min b (xz i + 1) - a)) = false -> nth_error out j = nth_error out0 j) /\
  (forall k, (a <= k <= xz i)%Z -> (k < b)%Z -> exists v, nth_error out (o + Z.to_nat (k - a)) = Some v /\ good k v) /\
  ((xz i < b)%Z -> nth_error out (o + Z.to_nat (xz i - a)) = Some (yq i)).

Lemma write_x i out : i <= N -> length out = length out0 ->
  exists out', (if (xz i <? b)%Z then _ <- need (a <=? xz i)%Z ;; aset out (o + Z.to_nat (xz i - a)) (yq i) else Some out) = Some out' /\ length out' = length out0 /\
    (forall j, (xz i < b)%Z /\ j = o + Z.to_nat (xz i - a) \/ nth_error out' j = nth_error out j) /\ ((xz i < b)%Z -> nth_error out' (o + Z.to_nat (xz i - a)) = Some (yq i)).
Proof.
  intros hi hl. pose proof (gz_range i hi) as hr. destruct (Z.ltb_spec (xz i) b) as [h|h].
  - replace (a <=? xz i)%Z with true by lia. cbn [need bind]. destruct (aset_some out (o + Z.to_nat (xz i - a)) (yq i)) as [out' e]; [lia|]. exists out'. splits; auto.
    + rewrite (aset_length _ _ _ _ e). exact hl.
    + intros j. rewrite (aset_get _ _ _ _ j e). destruct (Nat.eqb_spec j (o + Z.to_nat (xz i - a))); auto.
    + intros _. rewrite (aset_get _ _ _ _ _ e), Nat.eqb_refl. reflexivity.
  - exists out. splits; auto. intros; lia.
Qed.

Lemma gap_first : exists out, bezier_body interpolator a b ps (inject_Z a, ya) s_size o 0 a out0 = Some (xz 0, out) /\ done 0 out.
Proof.
  unfold bezier_body. rewrite x_at_eq by lia. cbn [bind]. rewrite y_at_eq. cbn [bind]. destruct (write_x 0 out0 ltac:(lia) eq_refl) as (out & e & hl & hk & hx). rewrite e. cbn [bind].
  replace (u64 (xz 0 - a) <? 2)%Z with true by (rewrite xz_0, Z.sub_diag; reflexivity). exists out. split; [reflexivity|]. unfold done. rewrite xz_0 in *. splits; auto.
  - intros j hj. destruct (hk j) as [[h1 h2]|h]; [lia|exact h].
  - intros k hk1 hk2. assert (k = a) as -> by lia. exists (yq 0). split; [apply hx; lia|]. left. exists 0. splits; auto; [lia|reflexivity].
Qed.
Lemma gap_search_start i v x : S i <= N -> xz i = a -> (a < x)%Z -> xz (S i) = x -> gap_search interpolator ps s_size (S i) x v = Some (i, if i =? 0 then x else a).
Proof.
  intros hi h0 hax hx. cbn [gap_search]. rewrite x_at_eq by lia. cbn [bind]. rewrite hx, Z.ltb_irrefl. destruct i as [|i]; [reflexivity|]. cbn [gap_search Nat.eqb]. rewrite x_at_eq by lia. cbn [bind]. rewrite h0.
  replace (a <? x)%Z with true by lia. reflexivity.
Qed.
Lemma gap_next i out : S i <= N -> done i out -> exists out', bezier_body interpolator a b ps (inject_Z a, ya) s_size o (S i) (xz i) out = Some (xz (S i), out') /\ done (S i) out'.
Proof.
  intros hi (hl & hk & hg & hlast). pose proof (xz_step i hi) as hst. pose proof (gz_range i ltac:(lia)) as hr. pose proof (gz_range (S i) hi) as hr'.
  unfold bezier_body. rewrite x_at_eq by lia. cbn [bind]. rewrite y_at_eq. cbn [bind]. destruct (write_x (S i) out hi hl) as (out1 & e & hl1 & hk1 & hx1). rewrite e. cbn [bind].
  rewrite u64_small by (unfold two32, two64 in *; lia).
  destruct (Z.ltb_spec (xz (S i) - xz i) 2) as [hs|hs].
  - exists out1. split; [reflexivity|]. unfold done. splits; auto.
    + intros j hj. destruct (hk1 j) as [[h1 h2]|h]; [lia|]. rewrite h. apply hk. lia.
    + intros k hka hkb. destruct (Z.eq_dec k (xz (S i))) as [->|hne].
      * exists (yq (S i)). split; [apply hx1; lia|]. left. exists (S i). splits; auto. reflexivity.
      * destruct (hk1 (o + Z.to_nat (k - a))) as [[h1 h2]|h]; [lia|]. rewrite h. apply hg; lia.
  - assert (e2 : xz (S i) = (xz i + 2)%Z) by lia.
    assert (hyp : exists yp, (yp == yq i \/ (xz i = a /\ yp == yq 0))%Q /\
      (if (a <? xz i)%Z then y_previous <- aget out1 (o + Z.to_nat (xz i - a)) ;; Some (y_previous, xz i)
       else '(j, x_previous) <- gap_search interpolator ps s_size (S i) (xz (S i)) (xz i) ;;
         if j =? 0 then x_previous <- to_size (px (inject_Z a, ya)) ;; Some (py (inject_Z a, ya), x_previous) else Some (py (inject_Z a, ya), x_previous)) = Some (yp, xz i)).
    { destruct (Z.ltb_spec a (xz i)) as [h|h].
      - exists (yq i). split; [left; reflexivity|]. unfold aget. destruct (hk1 (o + Z.to_nat (xz i - a))) as [[h1 h2]|h2]; [lia|]. rewrite h2, hlast by lia. reflexivity.
      - assert (h0 : xz i = a) by lia. exists ya. split; [right; split; [exact h0|symmetry; exact y_0]|]. rewrite (gap_search_start i _ _ hi h0) by lia. cbn [bind px py fst snd]. rewrite to_size_int by (unfold two32, two64 in *; lia). cbn [bind].
        destruct i as [|i]; cbn [Nat.eqb]; rewrite h0; reflexivity. }
    destruct hyp as (yp & hyp & ep). rewrite ep. cbn [bind]. replace (xz i <=? xz (S i))%Z with true by lia. cbn [need bind].
    replace (Z.to_nat (xz (S i) - xz i)) with 2 by lia. cbn [for_ Nat.sub]. 
    unfold for_. cbn [Nat.sub for_from bind]. replace (a <=? xz i + Z.of_nat 1)%Z with true by lia. cbn [need bind].
    match goal with |- context [aset out1 ?j ?v] => destruct (aset_some out1 j v) as [out2 e3]; [lia|]; set (mean := v) in * end. rewrite e3. cbn [bind]. exists out2. split; [reflexivity|].
    assert (hm : (mean == (yp + yq (S i)) / 2)%Q). { unfold mean, lerp. replace (xz (S i) - xz i)%Z with 2%Z by lia. change (inject_Z (Z.of_nat 1) / inject_Z 2)%Q with (1 / 2)%Q. field. }
    assert (hidx : o + Z.to_nat (xz i + Z.of_nat 1 - a) = o + Z.to_nat (xz i + 1 - a)) by lia.
    unfold done. splits.
    + rewrite (aset_length _ _ _ _ e3). exact hl1.
    + intros j hj. rewrite (aset_get _ _ _ _ j e3). destruct (Nat.eqb_spec j (o + Z.to_nat (xz i + Z.of_nat 1 - a))) as [->|_]; [lia|]. destruct (hk1 j) as [[h1 h2]|h]; [lia|]. rewrite h. apply hk. lia.
    + intros k hka hkb. rewrite (aset_get _ _ _ _ _ e3). destruct (Nat.eqb_spec (o + Z.to_nat (k - a)) (o + Z.to_nat (xz i + Z.of_nat 1 - a))) as [he|he].
      * assert (k = (xz i + 1)%Z) as -> by lia. exists mean. split; [reflexivity|]. right. destruct hyp as [hy|[h0 hy]].
        -- exists i, (S i). splits; auto; try lia. rewrite hm, hy. reflexivity.
        -- exists 0, (S i). splits; auto; try lia. rewrite hm, hy. reflexivity.
      * destruct (Z.eq_dec k (xz (S i))) as [->|hne].
        -- exists (yq (S i)). split; [apply hx1; lia|]. left. exists (S i). splits; auto. reflexivity.
        -- destruct (hk1 (o + Z.to_nat (k - a))) as [[h1 h2]|h]; [lia|]. rewrite h. apply hg; lia.
    + intros hlt. rewrite (aset_get _ _ _ _ _ e3). destruct (Nat.eqb_spec (o + Z.to_nat (xz (S i) - a)) (o + Z.to_nat (xz i + Z.of_nat 1 - a))) as [he|_]; [lia|]. apply hx1. exact hlt.
Qed.
Definition complete (out : list Q) : Prop :=
  length out = length out0 /\ (forall j, (o <=? j) && (j <? o + Z.to_nat (b - a)) = false -> nth_error out j = nth_error out0 j) /\
  (forall k, (a <= k < b)%Z -> exists v, nth_error out (o + Z.to_nat (k - a)) = Some v /\ good k v).
Lemma done_complete i out : xz i = b -> done i out -> complete out.
Proof.
  intros e (h1 & h2 & h3 & _). rewrite e in *. unfold complete. splits; auto.
  - intros j hj. apply h2. lia.
  - intros k hk. apply h3; lia.
Qed.
Lemma gap_loop m : forall i fuel out, i + m = N -> m <= fuel -> done i out -> exists out', bezier_loop interpolator a b ps (inject_Z a, ya) s_size o fuel (S i) (Some (xz i)) (xz i) out = Some (true, out') /\ complete out'.
Proof.
  induction m as [|m IH]; intros i fuel out hi hf hd.
  - assert (i = N) as -> by lia. assert (hex : exists out', bezier_loop interpolator a b ps (inject_Z a, ya) s_size o fuel (S N) (Some (xz N)) (xz N) out = Some (true, out') /\ complete out'); [|exact hex].
    exists out. split; [|apply (done_complete N); auto]. destruct fuel; cbn [bezier_loop]; replace (Z.of_nat (S N) <? 2 * (b - a))%Z with false by (unfold N; lia); cbn [bind]; rewrite xz_N; rewrite Z.ltb_irrefl; reflexivity.
  - destruct fuel as [|fuel]; [lia|]. cbn [bezier_loop]. pose proof (gz_range i ltac:(lia)) as hr. destruct ((Z.of_nat (S i) <? 2 * (b - a))%Z || (xz i <? b)%Z) eqn:em.
    + assert (e1 : (if (Z.of_nat (S i) <? 2 * (b - a))%Z then Some true else x <- Some (xz i) ;; Some (x <? b)%Z) = Some true) by (destruct (Z.of_nat (S i) <? 2 * (b - a))%Z; [reflexivity|]; cbn [orb bind] in *; rewrite em; reflexivity). rewrite e1. cbn [bind].
      destruct (gap_next i out ltac:(lia) hd) as (out' & e & hd'). rewrite e. cbn [bind]. apply IH; [lia|lia|exact hd'].
    + apply orb_false_iff in em as [e1 e2]. rewrite e1. cbn [bind]. rewrite e2. exists out. split; [reflexivity|]. apply (done_complete i); [lia|exact hd].
Qed.
Lemma gap_generate s fuel yb : points s = ps -> aget ps 0 = Some (inject_Z a, ya) -> aget ps (points_count s - 1) = Some (inject_Z b, yb) -> s_size = (2 * (inject_Z b - inject_Z a))%Q -> S N <= fuel ->
  exists out, beziern_generate interpolator fuel a b s out0 o = Some (true, out) /\ complete out.
Proof.
  intros e0 e1 e2 es hf. unfold beziern_generate. rewrite e0, e1, e2. cbn [bind px fst]. replace (a <=? b)%Z with true by lia. cbn [need bind]. rewrite (to_size_comp _ (inject_Z 0)) by (rewrite inj_sub, Z.sub_diag; reflexivity). rewrite to_size_int by (unfold two64; lia). cbn [bind]. rewrite <- es.
  change (Z.to_nat 0) with 0. destruct fuel as [|fuel]; [lia|]. cbn [bezier_loop]. replace (Z.of_nat 0 <? 2 * (b - a))%Z with true by lia. cbn [bind]. destruct gap_first as (out1 & e & d1). rewrite e. cbn [bind].
  apply (gap_loop N 0 fuel out1); auto; lia.
Qed.
End Gaps.

(** ** the cubic curve *)
Section Cubic.
Variables (a b : Z) (ya yb : Q) (c d : point).
Hypothesis hab : (0 <= a < b)%Z.
Hypothesis hb : (b < two32)%Z.
Hypothesis hc : (inject_Z a <= px c)%Q.
Hypothesis hcd : (px c <= px d)%Q.
Hypothesis hd : (px d <= inject_Z b)%Q.
Let N := Z.to_nat (2 * (b - a)).
Let s_size := (2 * (inject_Z b - inject_Z a))%Q.
Let t (i : nat) : Q := tq a b i.
Definition x3 (i : nat) : Q := (inject_Z a * (1 - t i) * (1 - t i) * (1 - t i) + px c * 3 * (1 - t i) * (1 - t i) * t i + px d * 3 * (1 - t i) * t i * t i + inject_Z b * t i * t i * t i)%Q.
Definition y3 (i : nat) : Q := (ya * (1 - t i) * (1 - t i) * (1 - t i) + py c * 3 * (1 - t i) * (1 - t i) * t i + py d * 3 * (1 - t i) * t i * t i + yb * t i * t i * t i)%Q.
Definition z3 (i : nat) : Z := Qfloor (x3 i + (1 # 2)).
Definition ps3 : list point := [(inject_Z a, ya); c; d; (inject_Z b, yb)].

Lemma x3_step i : S i <= N -> (x3 i <= x3 (S i) /\ x3 (S i) <= x3 i + (3 # 2))%Q.
Proof.
  intros hi. pose proof (tq_range a b hab i ltac:(unfold N in hi; lia)) as [t0 t0']. pose proof (tq_range a b hab (S i) hi) as [t1 t1']. pose proof (tq_step a b hab i) as ts. pose proof (inv_size a b hab) as hu.
  fold (t i) in *. fold (t (S i)) in *. set (s := t (S i)) in *. set (r := t i) in *.
  set (u := (/ (2 * (inject_Z b - inject_Z a)))%Q) in *.
  set (A := (px c - inject_Z a)%Q) in *. set (B := (px d - px c)%Q) in *. set (C := (inject_Z b - px d)%Q) in *.
  assert (hA : (0 <= A)%Q) by (unfold A; lra). assert (hB : (0 <= B)%Q) by (unfold B; lra). assert (hC : (0 <= C)%Q) by (unfold C; lra).
  assert (hN : (u * (2 * (A + B + C)) == 1)%Q). { unfold u, A, B, C. field. intros h. pose proof (size_pos a b hab). lra. }
  set (f0 := ((1 - r) * (1 - r) + (1 - r) * (1 - s) + (1 - s) * (1 - s))%Q). set (f1 := (2 * (r * (1 - r)) + 2 * (s * (1 - s)) + r * (1 - s) + s * (1 - r))%Q). set (f2 := (r * r + r * s + s * s)%Q).
  assert (e : (x3 (S i) - x3 i == u * (f0 * A + f1 * B + f2 * C))%Q).
  { unfold x3. fold s. fold r. assert (es : (u == s - r)%Q) by lra. rewrite es. unfold f0, f1, f2, A, B, C. ring. }
  assert (m : forall p q, (0 <= p)%Q -> (0 <= q)%Q -> (0 <= p * q)%Q) by (intros; apply Qmult_le_0_compat; assumption).
  assert (g0 : (0 <= f0)%Q). { unfold f0. pose proof (m (1 - r) (1 - r) ltac:(lra) ltac:(lra))%Q. pose proof (m (1 - r) (1 - s) ltac:(lra) ltac:(lra))%Q. pose proof (m (1 - s) (1 - s) ltac:(lra) ltac:(lra))%Q. lra. }
  assert (g1 : (0 <= f1)%Q). { unfold f1. pose proof (m r (1 - r) ltac:(lra) ltac:(lra))%Q. pose proof (m s (1 - s) ltac:(lra) ltac:(lra))%Q. pose proof (m r (1 - s) ltac:(lra) ltac:(lra))%Q. pose proof (m s (1 - r) ltac:(lra) ltac:(lra))%Q. lra. }
  assert (g2 : (0 <= f2)%Q). { unfold f2. pose proof (m r r ltac:(lra) ltac:(lra))%Q. pose proof (m r s ltac:(lra) ltac:(lra))%Q. pose proof (m s s ltac:(lra) ltac:(lra))%Q. lra. }
  assert (sum : (f0 + f1 + f2 == 3)%Q) by (unfold f0, f1, f2; ring).
  assert (q1 : (0 <= u * (f0 * A + f1 * B + f2 * C))%Q). { apply m; [lra|]. pose proof (m f0 A g0 hA). pose proof (m f1 B g1 hB). pose proof (m f2 C g2 hC). lra. }
  assert (q2 : (0 <= u * ((3 - f0) * A + (3 - f1) * B + (3 - f2) * C))%Q). { apply m; [lra|]. pose proof (m (3 - f0) A ltac:(lra) hA)%Q. pose proof (m (3 - f1) B ltac:(lra) hB)%Q. pose proof (m (3 - f2) C ltac:(lra) hC)%Q. lra. }
  assert (e2 : ((3 # 2) - (x3 (S i) - x3 i) == u * ((3 - f0) * A + (3 - f1) * B + (3 - f2) * C))%Q).
  { rewrite e. assert (e3 : (3 # 2 == u * (3 * (A + B + C)))%Q). { setoid_replace (u * (3 * (A + B + C)))%Q with ((3 # 2) * (u * (2 * (A + B + C))))%Q by ring. rewrite hN. ring. } rewrite e3 at 1. ring. }
  split; lra.
Qed.
Lemma z3_0 : z3 0 = a.
Proof. unfold z3. pose proof (tq_0 a b hab) as h. fold (t 0) in h. apply floor_unique; unfold x3; rewrite h; rewrite ?inject_Z_plus; change (inject_Z 1) with 1%Q; lra. Qed.
Lemma z3_N : z3 N = b.
Proof. unfold z3. pose proof (tq_N a b hab) as h. fold N in h. fold (t N) in h. apply floor_unique; unfold x3; rewrite h; rewrite ?inject_Z_plus; change (inject_Z 1) with 1%Q; lra. Qed.
Lemma z3_step i : S i <= N -> (z3 i <= z3 (S i) <= z3 i + 2)%Z.
Proof.
  intros hi. destruct (x3_step i hi) as [h1 h2]. unfold z3. split; [apply Qfloor_resp_le; lra|]. replace (Qfloor (x3 i + (1 # 2)) + 2)%Z with (Qfloor (x3 i + (1 # 2) + 2)); [apply Qfloor_resp_le; lra|].
  apply floor_unique; pose proof (Qfloor_le (x3 i + (1 # 2))); pose proof (Qlt_floor (x3 i + (1 # 2))); rewrite !inject_Z_plus in *; change (inject_Z 1) with 1%Q in *; change (inject_Z 2) with 2%Q in *; lra.
Qed.
Lemma x3_nonneg i : i <= N -> (0 <= x3 i)%Q.
Proof.
  intros hi. assert (h0 : (0 <= inject_Z a)%Q) by (change 0%Q with (inject_Z 0); rewrite <- Zle_Qle; lia). induction i as [|i IH].
  - unfold x3. pose proof (tq_0 a b hab) as h. fold (t 0) in h. rewrite h. lra.
  - destruct (x3_step i hi). specialize (IH ltac:(lia)). lra.
Qed.
Lemma x3_at i : i <= N -> x_at bezier2_interpolate ps3 s_size i = Some (z3 i).
Proof.
  intros hi. unfold x_at, at_index, s_size. rewrite (size_nz a b hab). cbn [need bind]. unfold bezier2_interpolate, ps3. cbn [aget nth_error bind px fst]. fold (tq a b i). fold (t i). change (fst c) with (px c). change (fst d) with (px d). fold (x3 i). unfold qround. rewrite (proj2 (Qle_bool_iff 0 (x3 i)) (x3_nonneg i hi)). fold (z3 i). apply to_size_int.
  pose proof (gz_range a b z3 z3_0 z3_N z3_step i hi). unfold two32, two64 in *. lia.
Qed.
Lemma y3_at i : at_index bezier2_interpolate ps3 s_size i py = Some (y3 i).
Proof. unfold at_index, s_size. rewrite (size_nz a b hab). reflexivity. Qed.
Lemma y3_0 : (y3 0 == ya)%Q.
Proof. unfold y3. pose proof (tq_0 a b hab) as h. fold (t 0) in h. rewrite h. ring. Qed.
Lemma near_at i : i <= N -> near (inject_Z a, ya) c d (inject_Z b, yb) (z3 i) (y3 i).
Proof.
  intros hi. exists (t i). split; [apply (tq_range a b hab); exact hi|]. cbn [px py fst snd]. split.
  - pose proof (Qfloor_le (x3 i + (1 # 2))) as g1. pose proof (Qlt_floor (x3 i + (1 # 2))) as g2. fold (z3 i) in *. rewrite inject_Z_plus in g2. change (inject_Z 1) with 1%Q in g2.
    assert (e : (cubic (inject_Z a) (px c) (px d) (inject_Z b) (t i) == x3 i)%Q) by (unfold cubic, x3; ring). change (fst c) with (px c). change (fst d) with (px d). rewrite e. apply Qabs_Qle_condition. split; lra.
  - unfold cubic, y3. change (snd c) with (py c). change (snd d) with (py d). ring.
Qed.
Lemma near_comp k v w : (v == w)%Q -> near (inject_Z a, ya) c d (inject_Z b, yb) k v -> near (inject_Z a, ya) c d (inject_Z b, yb) k w.
Proof. intros e (u & h1 & h2 & h3). exists u. splits; auto; [lra|lra|]. rewrite <- e. exact h3. Qed.
Lemma good_on k v : good a b z3 y3 k v -> on_cubic (inject_Z a, ya) c d (inject_Z b, yb) k v.
Proof.
  intros [(i & h1 & h2 & h3)|(i & j & h1 & h2 & h3 & h4 & h5)].
  - left. apply (near_comp _ (y3 i)); [symmetry; exact h3|]. rewrite <- h2. apply near_at. exact h1.
  - right. exists (y3 i), (y3 j). rewrite <- h3, <- h4. splits; auto; apply near_at; assumption.
Qed.
Lemma cubic_generate fuel o out0 : o + Z.to_nat (b - a) <= length out0 -> S N <= fuel ->
  exists out, run_generate fuel a b (mkseg 4 ps3 Bezier2 NoPrepare) out0 o = Some (true, out) /\ length out = length out0 /\
  (forall j, (o <=? j) && (j <? o + Z.to_nat (b - a)) = false -> nth_error out j = nth_error out0 j) /\
  (forall k, (a <= k < b)%Z -> exists v, nth_error out (o + Z.to_nat (k - a)) = Some v /\ on_cubic (inject_Z a, ya) c d (inject_Z b, yb) k v).
Proof.
  intros ho hf. unfold run_generate. cbn [generate].
  destruct (gap_generate bezier2_interpolate a b ya ps3 s_size z3 y3 hab hb z3_0 z3_N z3_step x3_at y3_at y3_0 o out0 ho (mkseg 4 ps3 Bezier2 NoPrepare) fuel yb eq_refl eq_refl eq_refl eq_refl hf) as (out & e & h1 & h2 & h3).
  exists out. splits; auto. intros k hk. destruct (h3 k hk) as (v & e1 & hg). exists v. split; [exact e1|]. apply good_on. exact hg.
Qed.
End Cubic.

(** ** complete paths *)
Definition ready (s : Z * Q) (a : cpart) : segment :=
  match a with
  | CMove x y => mkseg 2 [(inject_Z (fst s), snd s); (inject_Z x, y); zero; zero] Move NoPrepare
  | CLine x y => mkseg 2 [(inject_Z (fst s), snd s); (inject_Z x, y); zero; zero] Line NoPrepare
  | CCubic c d x y => mkseg 4 [(inject_Z (fst s), snd s); c; d; (inject_Z x, y)] Bezier2 NoPrepare
  end.
Fixpoint readies (s : Z * Q) (l : list cpart) : list segment := match l with [] => [] | a :: l => ready s a :: readies (cend a) l end.
Lemma prepare_cparts root l : forall s, prepare_segments root (inject_Z (fst s), snd s) (map cbuild l) = Some (readies s l).
Proof.
  induction l as [|a l IH]; intros s; [reflexivity|]. destruct a as [x y|x y|[c1 c2] [d1 d2] x y]; cbn [map cbuild seg_move seg_line seg_bezier2 prepare_segments points generate PathModel.prepare points_count aset bind run_prepare aget nth_error Nat.sub readies cend ready px py fst snd].
  - pose proof (IH (x, y)) as h. cbn [fst snd] in h. rewrite h. reflexivity.
  - pose proof (IH (x, y)) as h. cbn [fst snd] in h. rewrite h. reflexivity.
  - pose proof (IH (x, y)) as h. cbn [fst snd] in h. rewrite h. reflexivity.
Qed.
Lemma readies_length l : forall s, length (readies s l) = length l.
Proof. induction l as [|a l IH]; intros s; cbn; auto. Qed.
Lemma ready_bounds s a : aget (points (ready s a)) 0 = Some (inject_Z (fst s), snd s) /\ aget (points (ready s a)) (points_count (ready s a) - 1) = Some (inject_Z (fst (cend a)), snd (cend a)).
Proof. destruct a; split; reflexivity. Qed.
Lemma draws_part m s p a b out fuel o (P : Z -> Q -> Prop) : draws false m s p -> from p = a -> upto p = b -> (a <= b)%Z -> m <= fuel -> o + Z.to_nat (b - a) <= length out -> (forall k v, (v == value p k)%Q -> (a <= k < b)%Z -> P k v) ->
  exists out', run_generate fuel a b s out o = Some (true, out') /\ length out' = length out /\ (forall j, (o <=? j) && (j <? o + Z.to_nat (b - a)) = false -> nth_error out' j = nth_error out j \/ exists v w, nth_error out' j = Some v /\ nth_error out j = Some w /\ (v == w)%Q) /\
  (forall k, (a <= k < b)%Z -> exists v, nth_error out' (o + Z.to_nat (k - a)) = Some v /\ P k v).
Proof.
  intros hd ha hb hab hm ho hP. destruct (hd fuel a b out o hm ltac:(lia) ltac:(lia) ltac:(right; lia) ho) as (out' & e & hl & hj). exists out'. splits; auto.
  - intros j h. specialize (hj j). rewrite h in hj. destruct (nth_error out' j) as [v|], (nth_error out j) as [w|]; cbn in hj; try contradiction; [right; eauto|auto].
  - intros k hk. specialize (hj (o + Z.to_nat (k - a))). replace ((o <=? o + Z.to_nat (k - a)) && (o + Z.to_nat (k - a) <? o + Z.to_nat (b - a))) with true in hj by lia. destruct (nth_error out' (o + Z.to_nat (k - a))) as [v|]; [|contradiction]. exists v. split; [reflexivity|].
    apply hP; [|exact hk]. cbn in hj. rewrite hj. replace (a + Z.of_nat (o + Z.to_nat (k - a) - o))%Z with k by lia. reflexivity.
Qed.
Lemma part_generate s a out fuel o : (0 <= fst s)%Z -> ordered (fst s) [a] -> S (Z.to_nat (2 * fst (cend a))) <= fuel -> o + Z.to_nat (fst (cend a) - fst s) <= length out ->
  exists out', run_generate fuel (fst s) (fst (cend a)) (ready s a) out o = Some (true, out') /\ length out' = length out /\
  (forall j, (o <=? j) && (j <? o + Z.to_nat (fst (cend a) - fst s)) = false -> nth_error out' j = nth_error out j \/ exists v w, nth_error out' j = Some v /\ nth_error out j = Some w /\ (v == w)%Q) /\
  (forall k, (fst s <= k < fst (cend a))%Z -> exists v, nth_error out' (o + Z.to_nat (k - fst s)) = Some v /\ csample (fst s) (snd s) a k v).
Proof.
  intros h0 (h1 & h2 & _) hf ho. destruct s as [x0 y0]. cbn [fst snd] in *. destruct a as [x y|x y|c d x y]; cbn [cend fst snd] in *.
  - apply (draws_part 0 _ (mkpiece x0 x (fun _ => 0%Q))); cbn [from upto value]; auto; try lia. apply draws_move; [reflexivity|intros; reflexivity].
  - apply (draws_part 0 _ (mkpiece x0 x (fun k => straight (inject_Z x0) y0 (inject_Z x) y (inject_Z k)))); cbn [from upto value]; auto; try lia.
    apply (draws_line false 0 _ _ (inject_Z x0, y0) (inject_Z x, y)); cbn [px py fst snd points aget nth_error generate from upto ready value]; auto; try (rewrite Qfloor_Z; reflexivity).
    + rewrite <- Zle_Qle. lia.
    + change 0%Q with (inject_Z 0). rewrite <- Zle_Qle. lia.
    + rewrite <- Zlt_Qlt. unfold two32, two64 in *. lia.
    + discriminate.
    + intros k hk. unfold lerp, straight. rewrite inj_sub. ring.
  - destruct h2 as (q0 & q1 & q2 & q3). destruct (cubic_generate x0 x y0 y c d ltac:(lia) ltac:(lia) q1 q2 q3 fuel o out ho ltac:(lia)) as (out' & e & hl & hj & hk). exists out'. splits; auto.
Qed.
Definition same_q (l l' : list Q) (j : nat) : Prop := nth_error l' j = nth_error l j \/ exists v w, nth_error l' j = Some v /\ nth_error l j = Some w /\ (v == w)%Q.
Lemma same_trans a b c j : same_q a b j -> same_q b c j -> same_q a c j.
Proof.
  intros [h|(v & w & h1 & h2 & h3)] [g|(v' & w' & g1 & g2 & g3)].
  - left. congruence.
  - right. exists v', w'. splits; auto. congruence.
  - right. exists v, w. splits; auto. congruence.
  - right. exists v', w. splits; auto. rewrite h1 in g2. injection g2 as ->. rewrite g3. exact h3.
Qed.
Lemma near_q p c d q k v w : (v == w)%Q -> near p c d q k v -> near p c d q k w.
Proof. intros e (u & h1 & h2 & h3). exists u. splits; auto; try lra. Qed.
Lemma csample_comp x0 y0 a k v w : (v == w)%Q -> csample x0 y0 a k v -> csample x0 y0 a k w.
Proof.
  intros e. destruct a as [x y|x y|c d x y]; cbn [csample]; try (intros h; rewrite <- e; exact h). intros [h|(u & z & h1 & h2 & h3)]; [left; apply (near_q _ _ _ _ _ _ _ e h)|right; exists u, z; splits; auto; rewrite <- e; exact h3].
Qed.
Lemma cfinal_cons s a l : cfinal s (a :: l) = cfinal (cend a) l.
Proof.
  unfold cfinal, cstart. cbn [length]. destruct (length l) as [|m] eqn:hl; [reflexivity|]. change (nth_error (a :: l) (S m)) with (nth_error l m). destruct (nth_error l m) eqn:e; [reflexivity|]. apply nth_error_None in e. lia.
Qed.
Lemma ordered_final l : forall s, ordered (fst s) l -> (fst s <= cfinal s l)%Z.
Proof. induction l as [|a l IH]; intros s h; [unfold cfinal; cbn; lia|]. rewrite cfinal_cons. destruct h as (h1 & _ & h3). specialize (IH (cend a) h3). lia. Qed.
Lemma cstart_cons s a l i : i < length l -> cstart s (a :: l) (S i) = cstart (cend a) l i.
Proof. intros hi. unfold cstart. destruct i as [|i]; [reflexivity|]. change (nth_error (a :: l) (S i)) with (nth_error l i). destruct (nth_error l i) eqn:e; [reflexivity|]. apply nth_error_None in e. lia. Qed.
Lemma whole_loop segs size fuel l : forall s pre current out, segs = pre ++ readies s l -> (0 <= fst s)%Z -> ordered (fst s) l -> (cfinal s l <= size)%Z -> S (Z.to_nat (2 * cfinal s l)) <= fuel -> (size <= Z.of_nat (length out))%Z ->
  exists out' current', get_loop fuel (length l) segs (length pre) current 0 size out 0 = Some (true, out', current') /\ length out' = length out /\
  (forall j, (Z.of_nat j < fst s \/ cfinal s l <= Z.of_nat j)%Z -> same_q out out' j) /\
  (forall i a k, nth_error l i = Some a -> (fst (cstart s l i) <= Z.of_nat k < fst (cend a))%Z -> exists v, nth_error out' k = Some v /\ csample (fst (cstart s l i)) (snd (cstart s l i)) a (Z.of_nat k) v).
Proof.
  induction l as [|a l IH]; intros s pre current out es h0 ho hf hm hl.
  - exists out, current. splits; auto; [intros; left; reflexivity|]. intros i a k e. destruct i; discriminate.
  - rewrite cfinal_cons in *. pose proof ho as (h1 & h2 & h3). pose proof (ordered_final l (cend a) h3) as hfin. cbn [readies] in es. cbn [length get_loop].
    assert (ea : aget segs (length pre) = Some (ready s a)) by (rewrite es; unfold aget; rewrite nth_error_app2, Nat.sub_diag by lia; reflexivity). rewrite ea. cbn [bind].
    destruct (ready_bounds s a) as [b1 b2]. rewrite b1, b2. cbn [bind px fst]. rewrite !to_size_int by (unfold two32, two64 in *; lia). cbn [bind].
    replace (size <? fst s)%Z with false by lia. replace (fst (cend a) <? 0)%Z with false by lia. replace (fst s <? 0)%Z with false by lia. replace (size <? fst (cend a))%Z with false by lia.
    assert (hoff : (if (0 <? fst s)%Z then Z.to_nat (fst s - 0) else 0) = Z.to_nat (fst s)) by (destruct (Z.ltb_spec 0 (fst s)); lia). rewrite hoff. cbn [Nat.add].
    destruct (part_generate s a out fuel (Z.to_nat (fst s))) as (out1 & e1 & q1 & q2 & q3); [exact h0|split; [exact h1|split; [exact h2|exact I]]|lia|lia|]. rewrite e1. cbn [bind].
    destruct (IH (cend a) (pre ++ [ready s a]) (length pre) out1) as (out' & cur' & e2 & r1 & r2 & r3); auto; try lia; [rewrite <- app_assoc; exact es|].
    assert (hS : S (length pre) = length (pre ++ [ready s a])) by (rewrite app_length; cbn; lia). rewrite hS, e2. exists out', cur'. splits; auto; [congruence| |].
    + intros j hj. apply (same_trans out out1 out' j); [apply q2; lia|apply r2; lia].
    + intros [|i] b k eb hk.
      * injection eb as <-. cbn [cstart] in *. destruct (q3 (Z.of_nat k) hk) as (v & ev & hv). replace (Z.to_nat (fst s) + Z.to_nat (Z.of_nat k - fst s)) with k in ev by lia.
        destruct (r2 k ltac:(lia)) as [hs|(v' & w & g1 & g2 & g3)]; [exists v; split; [congruence|exact hv]|]. exists v'. split; [exact g1|]. rewrite ev in g2. injection g2 as ->. apply (csample_comp _ _ _ _ w v'); [symmetry; exact g3|exact hv].
      * cbn [nth_error] in eb. rewrite cstart_cons in hk |- * by (apply (nth_error_lt _ _ _ eb)). apply (r3 i b k eb hk).
Qed.
Lemma path_cubic root fuel l size : l <> [] -> ordered 0 l -> (cfinal (0%Z, 0%Q) l <= size)%Z -> S (Z.to_nat (2 * cfinal (0%Z, 0%Q) l)) <= fuel ->
  exists p out, path_set root (map cbuild l) = Some p /\ get_all fuel p [(0%Z, size)] = Some [out] /\ length out = Z.to_nat size /\
  (forall i a k, nth_error l i = Some a -> (fst (cstart (0%Z, 0%Q) l i) <= Z.of_nat k < fst (cend a))%Z ->
    exists v, nth_error out k = Some v /\ csample (fst (cstart (0%Z, 0%Q) l i)) (snd (cstart (0%Z, 0%Q) l i)) a (Z.of_nat k) v) /\
  (forall k, (cfinal (0%Z, 0%Q) l <= Z.of_nat k < size)%Z -> exists v, nth_error out k = Some v /\ (v == 0)%Q).
Proof.
  intros hn ho hf hm. pose proof (prepare_cparts root l (0%Z, 0%Q)) as ep. cbn [fst snd] in ep. change (inject_Z 0, 0%Q) with zero in ep. exists (mkpath (readies (0%Z, 0%Q) l) 0 0).
  pose proof (ordered_final l (0%Z, 0%Q) ho) as hz. cbn [fst] in hz.
  destruct (whole_loop (readies (0%Z, 0%Q) l) size fuel l (0%Z, 0%Q) [] 0 (repeat 0%Q (Z.to_nat size))) as (out & cur & e & q1 & q2 & q3); auto; cbn [fst]; try lia; [rewrite repeat_length; lia|].
  exists out. rewrite repeat_length in q1. splits.
  - unfold path_set. rewrite ep. reflexivity.
  - cbn [get_all]. unfold path_get. cbn [segments current_segment_index previous_start Z.ltb Z.compare]. rewrite readies_length, Nat.sub_0_r, Z.sub_0_r. cbn [length] in e. rewrite e. reflexivity.
  - exact q1.
  - exact q3.
  - intros k hk. destruct (q2 k ltac:(right; lia)) as [h|(v & w & h1 & h2 & h3)].
    + exists 0%Q. split; [|reflexivity]. rewrite h. apply nth_error_repeat. lia.
    + exists v. split; [exact h1|]. rewrite nth_error_repeat in h2 by lia. injection h2 as <-. exact h3.
Qed.
