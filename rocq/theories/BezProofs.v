(** Proofs about sampling quadratic curves. *)
From Coq Require Import QArith Qround Lqa.
From Verif Require Import Base PathModel PathSpec PathProofs Path2Proofs.
Close Scope Q_scope.

Lemma floor_unique a z : (inject_Z z <= a)%Q -> (a < inject_Z (z + 1))%Q -> Qfloor a = z.
Proof.
  intros h1 h2. pose proof (Qfloor_le a) as g1. pose proof (Qlt_floor a) as g2.
  assert (hz1 : (z < Qfloor a + 1)%Z) by (rewrite Zlt_Qlt; lra). assert (hz2 : (Qfloor a < z + 1)%Z) by (rewrite Zlt_Qlt; lra). lia.
Qed.
Section Curve.
Variables (a b : Z) (ya yb cx cy : Q).
Hypothesis hab : (0 <= a < b)%Z.
Hypothesis hb : (b < two32)%Z.
Hypothesis hcx : (inject_Z a <= cx <= inject_Z b)%Q.
Let N := Z.to_nat (2 * (b - a)).
Let s_size := (2 * (inject_Z b - inject_Z a))%Q.
Definition tq (i : nat) : Q := (inject_Z (Z.of_nat i) / s_size)%Q.
Definition xq (i : nat) : Q := (inject_Z a * (1 - tq i) * (1 - tq i) + cx * 2 * (1 - tq i) * tq i + inject_Z b * tq i * tq i)%Q.
Definition yq (i : nat) : Q := (ya * (1 - tq i) * (1 - tq i) + cy * 2 * (1 - tq i) * tq i + yb * tq i * tq i)%Q.
Definition xz (i : nat) : Z := Qfloor (xq i + (1 # 2)).
Definition ps : list point := [(inject_Z a, ya); (cx, cy); (inject_Z b, yb); zero].

Lemma size_pos : (0 < s_size)%Q.
Proof. unfold s_size. assert (h : (inject_Z a < inject_Z b)%Q) by (rewrite <- Zlt_Qlt; lia). lra. Qed.
Lemma size_N : (s_size == inject_Z (Z.of_nat N))%Q.
Proof. unfold s_size, N. rewrite Z2Nat.id by lia. rewrite inject_Z_mult, inj_sub. reflexivity. Qed.
Lemma tq_step i : (tq (S i) == tq i + / s_size)%Q.
Proof. unfold tq. rewrite Nat2Z.inj_succ. unfold Z.succ. rewrite inject_Z_plus. change (inject_Z 1) with 1%Q. field. intros h. pose proof size_pos. lra. Qed.
Lemma tq_0 : (tq 0 == 0)%Q.
Proof. unfold tq. change (inject_Z (Z.of_nat 0)) with 0%Q. field. intros h. pose proof size_pos. lra. Qed.
Lemma tq_N : (tq N == 1)%Q.
Proof. unfold tq. rewrite <- size_N. field. intros h. pose proof size_pos. lra. Qed.
Lemma tq_range i : i <= N -> (0 <= tq i <= 1)%Q.
Proof.
  intros hi. pose proof size_pos as hs. assert (h1 : (0 <= inject_Z (Z.of_nat i))%Q) by (change 0%Q with (inject_Z 0); rewrite <- Zle_Qle; lia). assert (h2 : (inject_Z (Z.of_nat i) <= s_size)%Q) by (rewrite size_N, <- Zle_Qle; lia). unfold tq. split.
  - apply Qle_shift_div_l; [exact hs|]. lra.
  - apply Qle_shift_div_r; [exact hs|]. lra.
Qed.
Lemma inv_size : (0 < / s_size)%Q.
Proof. apply Qinv_lt_0_compat, size_pos. Qed.
Lemma xq_step i : S i <= N -> (xq i <= xq (S i) <= xq i + 1)%Q.
Proof.
  intros hi. pose proof (tq_range i ltac:(lia)) as [t0 _]. pose proof (tq_range (S i) hi) as [_ t1]. rewrite tq_step in t1. pose proof inv_size as hu. set (u := (/ s_size)%Q) in *. set (t := tq i) in *.
  assert (hN : (u * (2 * ((cx - inject_Z a) + (inject_Z b - cx))) == 1)%Q). { unfold u, s_size. field. intros h. pose proof size_pos. unfold s_size in *. lra. }
  set (A := (cx - inject_Z a)%Q) in *. set (B := (inject_Z b - cx)%Q) in *. assert (hA : (0 <= A)%Q) by (unfold A; lra). assert (hB : (0 <= B)%Q) by (unfold B; lra).
  assert (e : (xq (S i) - xq i == u * ((2 - 2 * t - u) * A + (2 * t + u) * B))%Q) by (unfold xq; rewrite tq_step; fold t; fold u; unfold A, B; ring).
  assert (p1 : (0 <= (2 - 2 * t - u) * A)%Q) by (apply Qmult_le_0_compat; lra). assert (p2 : (0 <= (2 * t + u) * B)%Q) by (apply Qmult_le_0_compat; lra).
  assert (p3 : (0 <= (2 * t + u) * A)%Q) by (apply Qmult_le_0_compat; lra). assert (p4 : (0 <= (2 - 2 * t - u) * B)%Q) by (apply Qmult_le_0_compat; lra).
  assert (q1 : (0 <= u * ((2 - 2 * t - u) * A + (2 * t + u) * B))%Q) by (apply Qmult_le_0_compat; lra). assert (q2 : (0 <= u * ((2 * t + u) * A + (2 - 2 * t - u) * B))%Q) by (apply Qmult_le_0_compat; lra).
  assert (e2 : (1 - (xq (S i) - xq i) == u * ((2 * t + u) * A + (2 - 2 * t - u) * B))%Q) by (rewrite e, <- hN; ring). split; lra.
Qed.
Lemma xz_0 : xz 0 = a.
Proof. unfold xz. apply floor_unique; unfold xq; rewrite tq_0; rewrite ?inject_Z_plus; change (inject_Z 1) with 1%Q; lra. Qed.
Lemma xz_N : xz N = b.
Proof. unfold xz. apply floor_unique; unfold xq; rewrite tq_N; rewrite ?inject_Z_plus; change (inject_Z 1) with 1%Q; lra. Qed.
Lemma xz_step i : S i <= N -> (xz i <= xz (S i) <= xz i + 1)%Z.
Proof.
  intros hi. destruct (xq_step i hi) as [h1 h2]. unfold xz. split; [apply Qfloor_resp_le; lra|]. replace (Qfloor (xq i + (1 # 2)) + 1)%Z with (Qfloor (xq i + (1 # 2) + 1)); [apply Qfloor_resp_le; lra|].
  apply floor_unique; pose proof (Qfloor_le (xq i + (1 # 2))); pose proof (Qlt_floor (xq i + (1 # 2))); rewrite !inject_Z_plus in *; change (inject_Z 1) with 1%Q in *; lra.
Qed.
Lemma xz_mono i j : i <= j <= N -> (xz i <= xz j)%Z.
Proof. intros [h1 h2]. induction h1 as [|j h1 IH]; [lia|]. pose proof (xz_step j h2). specialize (IH ltac:(lia)). lia. Qed.
Lemma xz_range i : i <= N -> (a <= xz i <= b)%Z.
Proof. intros hi. pose proof (xz_mono 0 i ltac:(lia)). pose proof (xz_mono i N ltac:(lia)). rewrite xz_0 in *. rewrite xz_N in *. lia. Qed.
Lemma xq_nonneg i : i <= N -> (0 <= xq i)%Q.
Proof.
  intros hi. destruct (tq_range i hi) as [t0 t1]. assert (h0 : (0 <= inject_Z a)%Q) by (change 0%Q with (inject_Z 0); rewrite <- Zle_Qle; lia). assert (h1 : (0 <= inject_Z b)%Q) by (change 0%Q with (inject_Z 0); rewrite <- Zle_Qle; lia).
  unfold xq. set (t := tq i) in *. assert (g1 : (0 <= inject_Z a * (1 - t) * (1 - t))%Q) by (apply Qmult_le_0_compat; [apply Qmult_le_0_compat|]; lra). assert (g2 : (0 <= cx * 2 * (1 - t) * t)%Q) by (apply Qmult_le_0_compat; [apply Qmult_le_0_compat; [apply Qmult_le_0_compat|]|]; lra). assert (g3 : (0 <= inject_Z b * t * t)%Q) by (apply Qmult_le_0_compat; [apply Qmult_le_0_compat|]; lra). lra.
Qed.
Lemma size_nz : negb (Qeq_bool s_size 0) = true.
Proof. destruct (Qeq_bool s_size 0) eqn:e; [|reflexivity]. apply Qeq_bool_iff in e. pose proof size_pos. lra. Qed.
Lemma x_at_eq i : i <= N -> x_at bezier1_interpolate ps s_size i = Some (xz i).
Proof.
  intros hi. unfold x_at, at_index. rewrite size_nz. cbn [need bind]. unfold bezier1_interpolate, ps. cbn [aget nth_error bind px fst]. fold (tq i). fold (xq i). unfold qround. rewrite (proj2 (Qle_bool_iff 0 (xq i)) (xq_nonneg i hi)). fold (xz i). apply to_size_int. pose proof (xz_range i hi). unfold two32, two64 in *. lia.
Qed.
Lemma y_at_eq i : at_index bezier1_interpolate ps s_size i py = Some (yq i).
Proof. unfold at_index. rewrite size_nz. reflexivity. Qed.

(** the last index that is rounded to k *)
Fixpoint search (n : nat) (k : Z) : nat := match n with O => 0 | S m => if (xz n =? k)%Z then n else search m k end.
Lemma search_found n k : n <= N -> (a <= k <= xz n)%Z -> xz (search n k) = k /\ search n k <= n.
Proof.
  induction n as [|n IH]; intros hn hk; cbn [search].
  - rewrite xz_0 in *. lia.
  - destruct (Z.eqb_spec (xz (S n)) k) as [e|e]; [auto|]. pose proof (xz_step n hn). destruct (IH ltac:(lia) ltac:(lia)) as [h1 h2]. split; [exact h1|lia].
Qed.
Lemma search_later n m k : n <= m <= N -> (k < xz n)%Z -> search m k = search n k.
Proof.
  intros [h1 h2] hk. induction h1 as [|m h1 IH]; [reflexivity|]. cbn [search]. pose proof (xz_mono n (S m) ltac:(lia)). replace (xz (S m) =? k)%Z with false by lia. apply IH. lia.
Qed.

Variables (fin : Z) (o : nat) (out0 : list Q).
Hypothesis hfin : (a < fin <= b)%Z.
Hypothesis ho : o + Z.to_nat (fin - a) <= length out0.
(** after the repetition with index i *)
Definition drawn (i : nat) (out : list Q) : Prop :=
  length out = length out0 /\ forall j, oeq (nth_error out j) (if (o <=? j) && (j <? o + Z.to_nat (Z.min fin (xz i + 1) - a)) then Some (yq (search i (a + Z.of_nat (j - o)))) else nth_error out0 j).
Lemma body_eq i xp out : i <= N -> (u64 (xz i - xp) <? 2)%Z = true -> bezier_body bezier1_interpolate a fin ps (inject_Z a, ya) s_size o i xp out = (out <- (if (xz i <? fin)%Z then aset out (o + Z.to_nat (xz i - a)) (yq i) else Some out) ;; Some (xz i, out)).
Proof.
  intros hi hx. unfold bezier_body. rewrite (x_at_eq i hi). cbn [bind]. rewrite y_at_eq. cbn [bind]. pose proof (xz_range i hi). replace (a <=? xz i)%Z with true by lia. cbn [need bind].
  destruct (if (xz i <? fin)%Z then aset out (o + Z.to_nat (xz i - a)) (yq i) else Some out); cbn [bind]; [|reflexivity]. rewrite hx. reflexivity.
Qed.
Lemma body_first : exists out, bezier_body bezier1_interpolate a fin ps (inject_Z a, ya) s_size o 0 a out0 = Some (xz 0, out) /\ drawn 0 out.
Proof.
  rewrite body_eq; [|lia|rewrite xz_0, Z.sub_diag; reflexivity]. rewrite xz_0. replace (a <? fin)%Z with true by lia. rewrite Z.sub_diag. destruct (aset_some out0 (o + Z.to_nat 0) (yq 0)) as [out e]; [cbn; lia|]. rewrite e. cbn [bind]. exists out. split; [reflexivity|]. split; [apply (aset_length _ _ _ _ e)|].
  intros j. rewrite (aset_get _ _ _ _ j e), xz_0. cbn [search]. replace (Z.to_nat 0) with 0 by reflexivity. replace ((o <=? j) && (j <? o + Z.to_nat (Z.min fin (a + 1) - a))) with (j =? o + 0) by (destruct (Nat.eqb_spec j (o + 0)); lia). destruct (j =? o + 0); apply oeq_refl.
Qed.
Lemma body_next i out : S i <= N -> drawn i out -> exists out', bezier_body bezier1_interpolate a fin ps (inject_Z a, ya) s_size o (S i) (xz i) out = Some (xz (S i), out') /\ drawn (S i) out'.
Proof.
  intros hi [hl hd]. pose proof (xz_step i hi) as hst. pose proof (xz_range i ltac:(lia)) as hr. pose proof (xz_range (S i) hi) as hr'. rewrite body_eq; [|exact hi|rewrite u64_small by (unfold two64; lia); lia].
  destruct (Z.ltb_spec (xz (S i)) fin) as [hf|hf].
  - destruct (aset_some out (o + Z.to_nat (xz (S i) - a)) (yq (S i))) as [out' e]; [lia|]. rewrite e. cbn [bind]. exists out'. split; [reflexivity|]. split; [rewrite (aset_length _ _ _ _ e); exact hl|]. intros j. rewrite (aset_get _ _ _ _ j e).
    destruct (Nat.eqb_spec j (o + Z.to_nat (xz (S i) - a))) as [->|hj].
    + replace ((o <=? o + Z.to_nat (xz (S i) - a)) && (o + Z.to_nat (xz (S i) - a) <? o + Z.to_nat (Z.min fin (xz (S i) + 1) - a))) with true by lia. cbn [search]. replace (xz (S i) =? a + Z.of_nat (o + Z.to_nat (xz (S i) - a) - o))%Z with true by lia. apply oeq_refl.
    + eapply oeq_trans; [apply hd|]. replace ((o <=? j) && (j <? o + Z.to_nat (Z.min fin (xz (S i) + 1) - a))) with ((o <=? j) && (j <? o + Z.to_nat (Z.min fin (xz i + 1) - a))) by lia. destruct (_ && _) eqn:ej; [|apply oeq_refl].
      cbn [search]. replace (xz (S i) =? a + Z.of_nat (j - o))%Z with false by lia. apply oeq_refl.
  - cbn [bind]. exists out. split; [reflexivity|]. split; [exact hl|]. intros j. eapply oeq_trans; [apply hd|]. replace ((o <=? j) && (j <? o + Z.to_nat (Z.min fin (xz (S i) + 1) - a))) with ((o <=? j) && (j <? o + Z.to_nat (Z.min fin (xz i + 1) - a))) by lia. destruct (_ && _) eqn:ej; [|apply oeq_refl].
    cbn [search]. replace (xz (S i) =? a + Z.of_nat (j - o))%Z with false by lia. apply oeq_refl.
Qed.
Lemma loop_next m : forall i fuel out, i + m = N -> m <= fuel -> drawn i out -> exists out', bezier_loop bezier1_interpolate a fin ps (inject_Z a, ya) s_size o fuel (S i) (Some (xz i)) (xz i) out = Some (true, out') /\ drawn N out'.
Proof.
  induction m as [|m IH]; intros i fuel out hi hf hd.
  - assert (i = N) as -> by lia. assert (hex : exists out', bezier_loop bezier1_interpolate a fin ps (inject_Z a, ya) s_size o fuel (S N) (Some (xz N)) (xz N) out = Some (true, out') /\ drawn N out'); [|exact hex].
    exists out. split; [|exact hd]. destruct fuel; cbn [bezier_loop]; replace (Z.of_nat (S N) <? 2 * (fin - a))%Z with false by (unfold N; lia); cbn [bind]; rewrite xz_N; replace (b <? fin)%Z with false by lia; reflexivity.
  - destruct fuel as [|fuel]; [lia|]. cbn [bezier_loop]. destruct ((Z.of_nat (S i) <? 2 * (fin - a))%Z || (xz i <? fin)%Z) eqn:em.
    + assert (e1 : (if (Z.of_nat (S i) <? 2 * (fin - a))%Z then Some true else x <- Some (xz i) ;; Some (x <? fin)%Z) = Some true) by (destruct (Z.of_nat (S i) <? 2 * (fin - a))%Z; [reflexivity|]; cbn [orb bind] in *; rewrite em; reflexivity). rewrite e1. cbn [bind].
      destruct (body_next i out ltac:(lia) hd) as (out' & e & hd'). rewrite e. cbn [bind]. apply IH; [lia|lia|exact hd'].
    + apply orb_false_iff in em as [e1 e2]. rewrite e1. cbn [bind]. rewrite e2. exists out. split; [reflexivity|]. destruct hd as [hl hd]. split; [exact hl|]. intros j. eapply oeq_trans; [apply hd|]. pose proof (xz_mono i N ltac:(lia)). replace (Z.min fin (xz N + 1)) with (Z.min fin (xz i + 1)) by lia. destruct (_ && _) eqn:ej; [|apply oeq_refl].
      rewrite (search_later i N); [apply oeq_refl|lia|lia].
Qed.
Lemma curve_generate fuel : S N <= fuel -> exists out, beziern_generate bezier1_interpolate fuel a fin (mkseg 3 ps Bezier1 PrepareArc) out0 o = Some (true, out) /\ length out = length out0 /\
  forall j, oeq (nth_error out j) (if (o <=? j) && (j <? o + Z.to_nat (fin - a)) then Some (yq (search N (a + Z.of_nat (j - o)))) else nth_error out0 j).
Proof.
  intros hf. unfold beziern_generate. cbn [points points_count aget ps nth_error Nat.sub bind px fst]. replace (a <=? fin)%Z with true by lia. cbn [need bind]. rewrite (to_size_comp _ (inject_Z 0)) by (rewrite inj_sub, Z.sub_diag; reflexivity). rewrite to_size_int by (unfold two64; lia). cbn [bind]. fold ps. fold s_size.
  change (Z.to_nat 0) with 0. destruct fuel as [|fuel]; [lia|]. cbn [bezier_loop]. replace (Z.of_nat 0 <? 2 * (fin - a))%Z with true by lia. cbn [bind]. destruct body_first as (out1 & e1 & d1). rewrite e1. cbn [bind].
  destruct (loop_next N 0 fuel out1 eq_refl ltac:(lia) d1) as (out & e & hl & hd). exists out. split; [exact e|]. split; [exact hl|]. intros j. eapply oeq_trans; [apply hd|]. rewrite xz_N. replace (Z.min fin (b + 1)) with fin by lia. apply oeq_refl.
Qed.
End Curve.
