(** More proofs about paths. *)
From Coq Require Import QArith Qround Qabs Lqa.
From Verif Require Import Base PathModel PathSpec PathProofs Path2Proofs Path3Proofs BezProofs CurveProofs.
Close Scope Q_scope.

Lemma knots_integer size xs y i p : nth_error (knots size (map inject_Z xs) y) i = Some p -> exists z, px p = inject_Z z.
Proof.
  intros h. unfold knots in h. assert (e : 0%Q :: map inject_Z xs ++ [inject_Z size] = map inject_Z (0%Z :: xs ++ [size])) by (cbn [map]; rewrite map_app; reflexivity). rewrite e in h. revert y i h. generalize (0%Z :: xs ++ [size]). intros l. induction l as [|z l IH]; intros [|v y] [|i] h; cbn in h; try discriminate; [injection h as <-; exists z; reflexivity|]. apply (IH y i h).
Qed.
Lemma path_samples_integer root fuel size n xs y c : 2 <= n <= 24 -> length y = n -> length xs = n - 2 -> flat c (n - 1) -> sorted (0%Q :: map inject_Z xs ++ [inject_Z size]) -> (0 <= size < two32)%Z ->
  exists out, path_samples root fuel size n (map inject_Z xs) y c = Some (true, out) /\ length out = Z.to_nat size /\
    (forall i p q k, nth_error (knots size (map inject_Z xs) y) i = Some p -> nth_error (knots size (map inject_Z xs) y) (S i) = Some q -> (px p <= inject_Z (Z.of_nat k) < px q)%Q ->
      exists v, nth_error out k = Some v /\ (v == straight (px p) (py p) (px q) (py q) (inject_Z (Z.of_nat k)))%Q /\ (inject_Z (Z.of_nat k) == px p -> v == py p)%Q).
Proof.
  intros hn hy hx hc hs hz. destruct (path_samples_lines root fuel size n (map inject_Z xs) y c hn hy ltac:(rewrite map_length; exact hx) hc hs hz) as (out & e & hl & hv & _). exists out. split; [exact e|]. split; [exact hl|].
  intros i p q k hp hq hk. destruct (knots_integer _ _ _ _ _ hp) as [a ea]. destruct (knots_integer _ _ _ _ _ hq) as [b eb]. assert (hk' : (a <= Z.of_nat k < b)%Z) by (rewrite ea, eb, <- Zle_Qle, <- Zlt_Qlt in hk; exact hk).
  destruct (hv i p q k hp hq) as (v & e1 & e2); [rewrite ea, eb, !Qfloor_Z; exact hk'|]. exists v. split; [exact e1|]. assert (hd : ~ (px q - px p == 0)%Q) by lra.
  assert (ev : (v == straight (px p) (py p) (px q) (py q) (inject_Z (Z.of_nat k)))%Q). { rewrite e2. unfold lerp, straight. rewrite ea at 1. rewrite Qfloor_Z. rewrite <- inj_sub, <- ea. ring. }
  split; [exact ev|]. intros he. rewrite ev. unfold straight. rewrite he. field. exact hd.
Qed.

Lemma samples_split ps a b c : (a <= b <= c)%Z -> samples_of ps (a, b) ++ samples_of ps (b, c) = samples_of ps (a, c).
Proof.
  intros h. unfold samples_of. cbn [fst snd]. replace (Z.to_nat (c - a)) with (Z.to_nat (b - a) + Z.to_nat (c - b)) by lia. rewrite seq_app, map_app. f_equal. cbn [Nat.add].
  apply nth_error_ext. intros i. rewrite !nth_error_map. destruct (Nat.lt_ge_cases i (Z.to_nat (c - b))) as [hi|hi].
  - rewrite !nth_error_nth' with (d := 0) by (rewrite seq_length; exact hi). rewrite !seq_nth by exact hi. cbn [option_map]. do 2 f_equal. lia.
  - rewrite !(proj2 (nth_error_None _ _)) by (rewrite seq_length; exact hi). reflexivity.
Qed.
Lemma consecutive_le ws : forall a b, consecutive a b ws -> (a <= b)%Z.
Proof. induction ws as [|[c d] ws IH]; intros a b h; cbn in h; [lia|]. destruct h as (-> & h1 & h2). specialize (IH _ _ h2). lia. Qed.
Lemma consecutive_samples ps ws : forall a b, consecutive a b ws -> concat (map (samples_of ps) ws) = samples_of ps (a, b).
Proof.
  induction ws as [|[c d] ws IH]; intros a b h; cbn [consecutive] in h; [subst; unfold samples_of; cbn [fst snd]; rewrite Z.sub_diag; reflexivity|]. destruct h as (-> & h1 & h2). cbn [map concat]. rewrite (IH d b h2). apply samples_split. pose proof (consecutive_le _ _ _ h2). lia.
Qed.
Lemma consecutive_allowed ws : forall a b s, (0 <= s <= a)%Z -> consecutive a b ws -> allowed s a ws.
Proof. induction ws as [|[c d] ws IH]; intros a b s hs h; cbn [consecutive allowed] in *; [exact I|]. destruct h as (-> & h1 & h2). split; [lia|]. split; [lia|]. apply (IH d b a); [lia|exact h2]. Qed.
Lemma concat_forall2 (l l' : list (list Q)) : Forall2 (Forall2 Qeq) l l' -> Forall2 Qeq (concat l) (concat l').
Proof. induction 1; cbn; [constructor|]. apply Forall2_app; assumption. Qed.
Lemma forall2_qeq_trans (a b c : list Q) : Forall2 Qeq a b -> Forall2 Qeq c b -> Forall2 Qeq a c.
Proof. intros h. revert c. induction h as [|x y a b hxy h IH]; intros c hc; inversion hc as [|u ? v ? h1 h2]; subst; [constructor|]. constructor; [rewrite hxy, h1; reflexivity|apply IH; assumption]. Qed.
Lemma path_consecutive root fuel parts ws size : parts <> [] -> ascending 0 parts -> (0 <= size)%Z -> consecutive 0 size ws ->
  exists p outs whole, path_set root (map build parts) = Some p /\ get_all fuel p ws = Some outs /\ get_all fuel p [(0%Z, size)] = Some [whole] /\ Forall2 Qeq (concat outs) whole.
Proof.
  intros hp ha hs hw. destruct (path_windows root fuel parts ws hp ha (consecutive_allowed ws 0%Z size 0%Z ltac:(lia) hw)) as (p & outs & e1 & e2 & h1). destruct (path_windows root fuel parts [(0%Z, size)] hp ha ltac:(cbn; lia)) as (p' & outs' & e1' & e2' & h2).
  rewrite e1 in e1'. injection e1' as <-. cbn [map] in h2. inversion h2 as [|whole ? rest ? hx hy]; subst. inversion hy; subst. exists p, outs, whole. splits; auto. apply concat_forall2 in h1. rewrite (consecutive_samples _ ws 0 size hw) in h1. apply (forall2_qeq_trans _ _ _ h1 hx).
Qed.
Lemma path_nested root fuel sub_end size : (0 <= size)%Z -> exists p, path_set root [seg_path sub_end] = Some p /\ get_all fuel p [(0%Z, size)] = Some [repeat 0%Q (Z.to_nat size)].
Proof.
  intros h. eexists. split; [reflexivity|]. cbn [get_all]. unfold path_get. cbn [segments current_segment_index previous_start Z.ltb Z.compare length Nat.sub get_loop aget nth_error bind points points_count px fst zero].
  change (to_size 0) with (Some 0%Z). cbn [bind]. replace (size <? 0)%Z with false by lia. cbn [Z.ltb Z.compare]. cbn. replace (size <? 0)%Z with false by lia. cbn. rewrite Z.sub_0_r. reflexivity.
Qed.
Lemma control_inside p q c : (px p < px q)%Q -> (0 <= c <= 1)%Q -> ~ (py p == py q)%Q ->
  ((px (arc_control p q c) - (px p + px q) / 2) * (px q - px p) + (py (arc_control p q c) - (py p + py q) / 2) * (py q - py p) == 0)%Q /\
  (px p <= px (arc_control p q c) <= px q)%Q /\ (py p <= py q -> py p <= py (arc_control p q c) <= py q)%Q /\ (py q <= py p -> py q <= py (arc_control p q c) <= py p)%Q.
Proof.
  intros hw hc hn. unfold arc_control. cbn zeta. assert (hh0 : ~ (py q - py p == 0)%Q) by (intros e; apply hn; lra). rewrite (qeq_false (py q - py p) 0 hh0).
  set (w := (px q - px p)%Q) in *. set (h := (py q - py p)%Q) in *. assert (hw' : (0 < w)%Q) by (unfold w; lra).
  set (s := if Qle_bool w (Qabs h) then (w / Qabs h)%Q else (Qabs h / w)%Q). assert (ha : (0 < Qabs h)%Q) by (destruct (Qlt_le_dec 0 (Qabs h)) as [l|l]; [exact l|exfalso; apply hh0; pose proof (Qabs_nonneg h); destruct (Qlt_le_dec h 0); [rewrite Qabs_neg in * by lra; lra|rewrite Qabs_pos in * by lra; lra]]).
  assert (hs : (0 <= s /\ s * Qabs h <= w /\ s * w <= Qabs h)%Q).
  { unfold s. destruct (Qle_bool w (Qabs h)) eqn:e.
    - apply Qle_bool_iff in e. split; [apply Qle_shift_div_l; lra|]. split; [setoid_replace (w / Qabs h * Qabs h)%Q with w by (field; lra); lra|]. apply Qle_trans with (1 * w)%Q; [|lra]. apply Qmult_le_compat_r; [apply Qle_shift_div_r; lra|lra].
    - assert (hl : (Qabs h < w)%Q) by (apply Qnot_le_lt; intros hl; apply Qle_bool_iff in hl; congruence). split; [apply Qle_shift_div_l; lra|]. split; [|setoid_replace (Qabs h / w * w)%Q with (Qabs h) by (field; lra); lra]. apply Qle_trans with (1 * Qabs h)%Q; [|lra]. apply Qmult_le_compat_r; [apply Qle_shift_div_r; lra|lra]. }
  destruct hs as (s0 & s1 & s2). set (A := (s * Qabs h)%Q) in *. set (B := (s * w)%Q) in *. assert (hA : (0 <= A)%Q) by (unfold A; apply Qmult_le_0_compat; lra). assert (hB : (0 <= B)%Q) by (unfold B; apply Qmult_le_0_compat; lra).
  assert (eA : (c / 2 * s * Qabs h == (1 # 2) * (c * A))%Q) by (unfold A; field). assert (eB : (c / 2 * s * w == (1 # 2) * (c * B))%Q) by (unfold B; field).
  assert (cA : (0 <= c * A <= A)%Q). { split; [apply Qmult_le_0_compat; lra|]. assert (0 <= (1 - c) * A)%Q by (apply Qmult_le_0_compat; lra). lra. }
  assert (cB : (0 <= c * B <= B)%Q). { split; [apply Qmult_le_0_compat; lra|]. assert (0 <= (1 - c) * B)%Q by (apply Qmult_le_0_compat; lra). lra. }
  assert (m1 : ((px p + px q) / 2 == px p + (1 # 2) * w)%Q) by (unfold w; field). assert (m2 : ((py p + py q) / 2 == py p + (1 # 2) * h)%Q) by (unfold h; field).
  cbn [px py fst snd]. destruct (Qlt_le_dec h 0) as [hneg|hpos].
  - rewrite (qle_false 0 h) by lra. assert (habs : (Qabs h == - h)%Q) by (apply Qabs_neg; lra). split.
    + rewrite habs. fold w. fold h. ring.
    + change (fst p) with (px p). change (snd p) with (py p). change (fst q) with (px q). change (snd q) with (py q). rewrite eA, eB. rewrite m1, m2. fold w h. unfold h, w in *. repeat split; lra.
  - rewrite (qle_true 0 h) by lra. assert (habs : (Qabs h == h)%Q) by (apply Qabs_pos; lra). split.
    + rewrite habs. fold w. fold h. ring.
    + rewrite eA, eB, m1, m2. unfold h, w in *. repeat split; lra.
Qed.
