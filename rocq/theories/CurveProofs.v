(** Proofs about curved segments. *)
From Coq Require Import QArith Qround Qabs Lqa.
From Verif Require Import Base PathModel PathSpec PathProofs Path2Proofs Path3Proofs BezProofs.
Close Scope Q_scope.

Lemma qle_true a b : (a <= b)%Q -> Qle_bool a b = true. Proof. apply Qle_bool_iff. Qed.
Lemma qle_false a b : (b < a)%Q -> Qle_bool a b = false.
Proof. intros h. destruct (Qle_bool a b) eqn:e; [|reflexivity]. apply Qle_bool_iff in e. lra. Qed.
Lemma qlt_true a b : (a < b)%Q -> qlt a b = true. Proof. intros h. unfold qlt. rewrite qle_false by exact h. reflexivity. Qed.
Lemma qlt_false a b : (b <= a)%Q -> qlt a b = false. Proof. intros h. unfold qlt. rewrite qle_true by exact h. reflexivity. Qed.
Lemma qlt_cases a b : qlt a b = true /\ (a < b)%Q \/ qlt a b = false /\ (b <= a)%Q.
Proof. destruct (Qlt_le_dec a b); [left|right]; split; auto; [apply qlt_true|apply qlt_false]; auto. Qed.
Lemma qeq_false a b : ~ (a == b)%Q -> Qeq_bool a b = false.
Proof. intros h. destruct (Qeq_bool a b) eqn:e; [|reflexivity]. apply Qeq_bool_iff in e. contradiction. Qed.
Lemma qeq_true a b : (a == b)%Q -> Qeq_bool a b = true. Proof. apply Qeq_bool_iff. Qed.

Section Arc.
Variable root : Q -> Q.
Hypothesis hroot : forall r, (0 < r)%Q -> ~ (root r == 0)%Q.
Variables (x0 y0 x1 y1 c : Q).
Hypothesis hw : (x0 < x1)%Q.
Hypothesis hc : (0 < c <= 1)%Q.
Let w := (x1 - x0)%Q.
Let h := (y1 - y0)%Q.

Lemma half_le u v : (0 < u)%Q -> (0 < v)%Q -> (u <= v)%Q -> (u / (2 * v) <= v / (2 * u))%Q.
Proof. intros hu hv huv. apply Qle_trans with (1 # 2)%Q; [apply Qle_shift_div_r; lra|apply Qle_shift_div_l; lra]. Qed.
Lemma half_lt u v : (0 < u)%Q -> (0 < v)%Q -> (u < v)%Q -> (u / (2 * v) < v / (2 * u))%Q.
Proof. intros hu hv huv. apply Qlt_trans with (1 # 2)%Q; [apply Qlt_shift_div_r; lra|apply Qlt_shift_div_l; lra]. Qed.
Lemma div_pos u v : (0 < u)%Q -> (0 < v)%Q -> (0 < u / v)%Q.
Proof. intros hu hv. apply Qlt_shift_div_l; lra. Qed.
Lemma perpendicular_spec : (y0 < y1 \/ y0 - y1 <= x1 - x0)%Q -> exists m, perpendicular_point root (x0, y0) (x1, y1) c = Some m /\
  (px m == px (arc_control (x0, y0) (x1, y1) c))%Q /\ (py m == py (arc_control (x0, y0) (x1, y1) c))%Q.
Proof.
  intros hg. unfold perpendicular_point, arc_control. cbn [px py fst snd]. fold w. fold h. rewrite (qeq_false 0 c) by lra. assert (hw' : (0 < w)%Q) by (unfold w; lra).
  assert (hm : ~ (root (-1 * h * (-1 * h) + w * w) == 0)%Q). { apply hroot. assert (p1 : (0 < w * w)%Q) by (apply Qmult_lt_0_compat; assumption). assert (p2 : (0 <= h * h)%Q) by (destruct (Qlt_le_dec h 0); [setoid_replace (h * h)%Q with ((- h) * (- h))%Q by ring; apply Qmult_le_0_compat; lra|apply Qmult_le_0_compat; lra]). lra. }
  set (M := root _) in *.
  destruct (Q_dec h 0) as [[hn|hp]|hz].
  - (* falling *)
    assert (hgw : (- h <= w)%Q) by (unfold h, w in *; destruct hg; lra).
    rewrite (qeq_false 0 (-1 * h)) by lra. rewrite (qeq_false 0 w) by lra. rewrite (qlt_true 0 (-1 * h)) by lra. rewrite (qlt_true 0 w) by lra. rewrite (qeq_false h 0) by lra.
    assert (e1x : ((x1 - (x0 + x1) / 2) / (-1 * h) == w / (2 * (- h)))%Q) by (unfold w; field; lra). assert (e1y : ((y1 - (y0 + y1) / 2) / w == - (- h / (2 * w)))%Q) by (unfold h; field; lra).
    assert (e2x : ((x0 - (x0 + x1) / 2) / (-1 * h) == - (w / (2 * (- h))))%Q) by (unfold w; field; lra). assert (e2y : ((y0 - (y0 + y1) / 2) / w == - h / (2 * w))%Q) by (unfold h; field; lra).
    assert (p1 : (0 < w / (2 * (- h)))%Q) by (apply div_pos; lra). assert (p2 : (0 < - h / (2 * w))%Q) by (apply div_pos; lra).
    rewrite (qle_false ((x1 - (x0 + x1) / 2) / (-1 * h)) ((y1 - (y0 + y1) / 2) / w)) by lra. rewrite (qle_false ((y0 - (y0 + y1) / 2) / w) ((x0 - (x0 + x1) / 2) / (-1 * h))) by lra.
    cbn [px py fst snd]. rewrite (qeq_false M 0) by exact hm. cbn [negb need bind]. eexists. split; [reflexivity|]. cbn [px py fst snd]. rewrite (qle_false 0 h) by lra.
    assert (ha : (Qabs h == - h)%Q) by (apply Qabs_neg; lra).
    assert (hs : ((if Qle_bool w (Qabs h) then w / Qabs h else Qabs h / w) == - h / w)%Q). { destruct (Qle_bool w (Qabs h)) eqn:el; [|rewrite ha; reflexivity]. apply Qle_bool_iff in el. rewrite ha in *. assert (ew : (w == - h)%Q) by lra. rewrite ew. reflexivity. }
    rewrite hs, ha. split; [rewrite e1y, e2y; unfold w, h in *; field; split; lra|unfold w, h in *; field; split; lra].
  - (* rising *)
    rewrite (qeq_false 0 (-1 * h)) by lra. rewrite (qeq_false 0 w) by lra. rewrite (qlt_false 0 (-1 * h)) by lra. rewrite (qlt_true 0 w) by lra. rewrite (qeq_false h 0) by lra.
    assert (e1x : ((x0 - (x0 + x1) / 2) / (-1 * h) == w / (2 * h))%Q) by (unfold w; field; lra). assert (e1y : ((y1 - (y0 + y1) / 2) / w == h / (2 * w))%Q) by (unfold h; field; lra).
    assert (e2x : ((x1 - (x0 + x1) / 2) / (-1 * h) == - (w / (2 * h)))%Q) by (unfold w; field; lra). assert (e2y : ((y0 - (y0 + y1) / 2) / w == - (h / (2 * w)))%Q) by (unfold h; field; lra).
    assert (ha : (Qabs h == h)%Q) by (apply Qabs_pos; lra). rewrite (qle_true 0 h) by lra.
    destruct (Qlt_le_dec h w) as [hl|hl].
    + pose proof (half_lt h w hp hw' hl) as hh. rewrite (qle_false ((x0 - (x0 + x1) / 2) / (-1 * h)) ((y1 - (y0 + y1) / 2) / w)) by lra. rewrite (qle_false ((y0 - (y0 + y1) / 2) / w) ((x1 - (x0 + x1) / 2) / (-1 * h))) by lra.
      cbn [px py fst snd]. rewrite (qeq_false M 0) by exact hm. cbn [negb need bind]. eexists. split; [reflexivity|]. cbn [px py fst snd]. rewrite (qle_false w (Qabs h)) by lra. rewrite ha.
      split; [rewrite e1y, e2y; field; split; lra|unfold w, h in *; field; split; lra].
    + pose proof (half_le w h hw' hp hl) as hh. rewrite (qle_true ((x0 - (x0 + x1) / 2) / (-1 * h)) ((y1 - (y0 + y1) / 2) / w)) by lra. rewrite (qle_true ((y0 - (y0 + y1) / 2) / w) ((x1 - (x0 + x1) / 2) / (-1 * h))) by lra.
      cbn [px py fst snd]. rewrite (qeq_false M 0) by exact hm. cbn [negb need bind]. eexists. split; [reflexivity|]. cbn [px py fst snd]. rewrite (qle_true w (Qabs h)) by lra. rewrite ha.
      split; [unfold w, h in *; field; split; lra|rewrite e1x, e2x; field; split; lra].
  - rewrite (qeq_true 0 (-1 * h)) by lra. cbn [px py fst snd]. rewrite (qeq_false M 0) by exact hm. cbn [negb need bind]. eexists. split; [reflexivity|]. cbn [px py fst snd]. rewrite (qeq_true h 0) by exact hz. cbn [px py fst snd]. split; field; exact hm.
Qed.
Lemma control_range : (y0 < y1 \/ y0 - y1 <= x1 - x0)%Q -> (x0 <= px (arc_control (x0, y0) (x1, y1) c) <= x1)%Q.
Proof.
  intros hg. unfold arc_control. cbn [px py fst snd]. fold w. fold h. assert (hw' : (0 < w)%Q) by (unfold w; lra). assert (eh : ((x0 + x1) / 2 == x0 + (1 # 2) * w)%Q) by (unfold w; field). assert (ec2 : (c / 2 == (1 # 2) * c)%Q) by field. assert (ex1 : (x1 == x0 + w)%Q) by (unfold w; ring).
  destruct (Q_dec h 0) as [[hn|hp]|hz].
  - rewrite (qeq_false h 0) by lra. assert (ha : (Qabs h == - h)%Q) by (apply Qabs_neg; lra). assert (hgw : (- h <= w)%Q) by (unfold h, w in *; destruct hg; lra). cbn [px fst]. rewrite ec2, eh.
    assert (hs : ((if Qle_bool w (Qabs h) then w / Qabs h else Qabs h / w) == - h / w)%Q). { destruct (Qle_bool w (Qabs h)) eqn:el; [|rewrite ha; reflexivity]. apply Qle_bool_iff in el. rewrite ha in *. assert (ew : (w == - h)%Q) by lra. rewrite ew. reflexivity. }
    rewrite hs, ha. set (r := (- h / w)%Q). assert (r0 : (0 <= r)%Q) by (unfold r; apply Qle_shift_div_l; lra). assert (r1 : (r <= 1)%Q) by (unfold r; apply Qle_shift_div_r; lra).
    assert (p1 : (0 <= (1 # 2) * c * r * - h)%Q) by (apply Qmult_le_0_compat; [apply Qmult_le_0_compat; lra|lra]).
    assert (p2 : ((1 # 2) * c * r <= (1 # 2))%Q). { assert (p3 : (0 <= (1 # 2) * c * (1 - r))%Q) by (apply Qmult_le_0_compat; lra). lra. }
    assert (p4 : (0 <= ((1 # 2) - (1 # 2) * c * r) * - h)%Q) by (apply Qmult_le_0_compat; lra). lra.
  - rewrite (qeq_false h 0) by lra. assert (ha : (Qabs h == h)%Q) by (apply Qabs_pos; lra). cbn [px fst]. rewrite ec2, eh. destruct (Qlt_le_dec h w) as [hl|hl].
    + rewrite (qle_false w (Qabs h)) by lra. rewrite ha. set (r := (h / w)%Q). assert (r0 : (0 <= r)%Q) by (unfold r; apply Qle_shift_div_l; lra). assert (r1 : (r <= 1)%Q) by (unfold r; apply Qle_shift_div_r; lra).
      assert (p1 : (0 <= (1 # 2) * c * r * h)%Q) by (apply Qmult_le_0_compat; [apply Qmult_le_0_compat; lra|lra]).
      assert (p2 : ((1 # 2) * c * r <= (1 # 2))%Q). { assert (p3 : (0 <= (1 # 2) * c * (1 - r))%Q) by (apply Qmult_le_0_compat; lra). lra. }
      assert (p4 : (0 <= ((1 # 2) - (1 # 2) * c * r) * h)%Q) by (apply Qmult_le_0_compat; lra). lra.
    + rewrite (qle_true w (Qabs h)) by lra. rewrite ha. assert (e : ((1 # 2) * c * (w / h) * h == (1 # 2) * c * w)%Q) by (field; lra). rewrite e. assert (p1 : (0 <= (1 # 2) * c * w)%Q) by (apply Qmult_le_0_compat; lra). assert (p2 : (0 <= ((1 # 2) - (1 # 2) * c) * w)%Q) by (apply Qmult_le_0_compat; lra). lra.
  - rewrite (qeq_true h 0) by exact hz. cbn [px fst]. rewrite eh. lra.
Qed.
End Arc.

Lemma draws_curve m a b ya yb cx cy : (0 <= a < b)%Z -> (b < two32)%Z -> (inject_Z a <= cx <= inject_Z b)%Q -> S (Z.to_nat (2 * (b - a))) <= m ->
  draws false m (mkseg 3 (ps a b ya yb cx cy) Bezier1 PrepareArc) (mkpiece a b (fun k => yq a b ya yb cy (search a b cx (Z.to_nat (2 * (b - a))) k))).
Proof.
  intros hab hb hc hm fuel start fin out o hf h1 h2 hw ho. cbn [from upto] in *. destruct hw as [hw|[-> hw]]; [discriminate|]. unfold run_generate. cbn [generate].
  destruct (curve_generate a b ya yb cx cy hab hb hc fin o out ltac:(lia) ho fuel ltac:(lia)) as (out' & e & hl & hj). exists out'. splits; auto.
Qed.
Lemma curve_sampled a b ya yb c cx cy k : (0 <= a < b)%Z -> (b < two32)%Z -> (inject_Z a <= cx <= inject_Z b)%Q -> (a <= k < b)%Z -> qlt c (1 # 100000) = false ->
  (cx == px (arc_control (inject_Z a, ya) (inject_Z b, yb) c))%Q -> (cy == py (arc_control (inject_Z a, ya) (inject_Z b, yb) c))%Q ->
  sampled (inject_Z a, ya) (inject_Z b, yb) c k (yq a b ya yb cy (search a b cx (Z.to_nat (2 * (b - a))) k)).
Proof.
  intros hab hb hc hk hq ex ey. unfold sampled. rewrite hq. cbn zeta. set (N := Z.to_nat (2 * (b - a))) in *. destruct (search_found a b cx hab hc N k (le_n _)) as [h1 h2]; [unfold N; rewrite (xz_N a b cx hab); lia|].
  set (i := search a b cx N k) in *. exists (tq a b i). split; [apply (tq_range a b hab); exact h2|]. unfold quadratic. rewrite <- ex, <- ey. cbn [px py fst snd]. split; [|reflexivity].
  unfold xz in h1. pose proof (Qfloor_le (xq a b cx i + (1 # 2))) as g1. pose proof (Qlt_floor (xq a b cx i + (1 # 2))) as g2. rewrite h1 in *. rewrite inject_Z_plus in g2. change (inject_Z 1) with 1%Q in g2. unfold xq in *. apply Qabs_Qle_condition. split; lra.
Qed.

(** the pieces of the segments that follow the point (a, ya) *)
Inductive shows : Z -> Q -> list (Z * Q * Q) -> list piece -> Prop :=
  | shows_nil a ya : shows a ya [] []
  | shows_cons a ya b yb c l p ps : from p = a -> upto p = b -> (a < b)%Z -> (forall k, (a <= k < b)%Z -> sampled (inject_Z a, ya) (inject_Z b, yb) c k (value p k)) -> shows b yb l ps -> shows a ya ((b, yb, c) :: l) (p :: ps).
Definition seg_of (s : Z * Q * Q) : segment := let '(b, yb, c) := s in path_segment (inject_Z b) yb c.
Fixpoint supported (a : Z) (ya : Q) (l : list (Z * Q * Q)) : Prop :=
  match l with [] => True | (b, yb, c) :: l => (a < b < two32)%Z /\ gentle (inject_Z a, ya) (inject_Z b, yb) c /\ supported b yb l end.
Fixpoint final (a : Z) (l : list (Z * Q * Q)) : Z := match l with [] => a | (b, _, _) :: l => final b l end.
Lemma supported_final l : forall a ya, supported a ya l -> (a <= final a l)%Z.
Proof. induction l as [|[[b yb] c] l IH]; intros a ya h; cbn in *; [lia|]. destruct h as (h1 & _ & h3). specialize (IH b yb h3). lia. Qed.
Lemma pieces_curves root m (hroot : forall r, (0 < r)%Q -> ~ (root r == 0)%Q) l : forall a ya, (0 <= a)%Z -> supported a ya l -> S (Z.to_nat (2 * (final a l))) <= m ->
  exists segs ps, prepare_segments root (inject_Z a, ya) (map seg_of l) = Some segs /\ pieces false m a segs ps /\ shows a ya l ps.
Proof.
  induction l as [|[[b yb] c] l IH]; intros a ya ha hs hm; [exists [], []; splits; auto; [apply pieces_nil|apply shows_nil]|]. cbn [supported final] in *. destruct hs as (hab & [hc1 hg] & hs).
  pose proof (supported_final l b yb hs) as hfin. destruct (IH b yb ltac:(lia) hs hm) as (segs & pcs & e & hp & hsh). cbn [map seg_of]. unfold path_segment. destruct (qlt_cases c (1 # 100000)) as [[hq hq']|[hq hq']]; rewrite hq.
  - cbn [seg_line prepare_segments points generate PathModel.prepare points_count aset bind run_prepare aget nth_error Nat.sub]. rewrite e. cbn [bind]. set (p := mkpiece a b (fun k => straight (inject_Z a) ya (inject_Z b) yb (inject_Z k))). eexists; exists (p :: pcs). split; [reflexivity|]. split.
    + change a with (from p) at 1. apply pieces_cons; cbn [from upto p]; [lia| | |exact hp].
      * exists (inject_Z a, ya), (inject_Z b, yb). splits; auto; apply to_size_int; unfold two32, two64 in *; lia.
      * apply (draws_line false m _ p (inject_Z a, ya) (inject_Z b, yb)); cbn [px py fst snd points aget nth_error generate]; auto; try (rewrite Qfloor_Z; reflexivity).
        -- rewrite <- Zle_Qle. lia.
        -- change 0%Q with (inject_Z 0). rewrite <- Zle_Qle. lia.
        -- rewrite <- Zlt_Qlt. unfold two32, two64 in *. lia.
        -- discriminate.
        -- intros k hk. unfold p, lerp, straight. cbn [value from]. rewrite inj_sub. ring.
    + apply shows_cons; auto; [lia|]. intros k hk. unfold sampled. rewrite hq. reflexivity.
  - assert (hcp : ~ (c == 0)%Q) by lra. assert (hwq : (inject_Z a < inject_Z b)%Q) by (rewrite <- Zlt_Qlt; lia). specialize (hg hq'). cbn [px py fst snd] in hg.
    unfold seg_arc. rewrite (qeq_false c 0 hcp). cbn [seg_bezier1 prepare_segments points generate PathModel.prepare points_count aset bind run_prepare aget nth_error Nat.sub py snd].
    destruct (perpendicular_spec root hroot (inject_Z a) ya (inject_Z b) yb c hwq ltac:(lra) hg) as ([mx my] & em & ex & ey). rewrite em. cbn [bind]. cbn [aset bind aget nth_error]. cbn [points generate PathModel.prepare points_count aset bind aget nth_error Nat.sub].
    rewrite e. cbn [bind]. cbn [px py fst snd] in ex, ey. assert (hr : (inject_Z a <= mx <= inject_Z b)%Q) by (rewrite ex; apply control_range; [exact hwq|lra|exact hg]).
    set (p := mkpiece a b (fun k => yq a b ya yb my (search a b mx (Z.to_nat (2 * (b - a))) k))). eexists; exists (p :: pcs). split; [reflexivity|]. split.
    + change a with (from p) at 1. apply pieces_cons; cbn [from upto p]; [lia| | |exact hp].
      * exists (inject_Z a, ya), (inject_Z b, yb). splits; auto; apply to_size_int; unfold two32, two64 in *; lia.
      * apply draws_curve; auto; lia.
    + apply shows_cons; auto; [lia|]. intros k hk. cbn [value p]. apply (curve_sampled a b ya yb c mx my k); auto; lia.
Qed.
