(** Proofs about move, constant and line segments and sp_path_samples. *)
From Coq Require Import QArith Qround.
From Verif Require Import Base PathModel PathSpec PathProofs.
Close Scope Q_scope.
#[local] Hint Resolve oeq_refl : core.

Lemma to_size_comp a b : (a == b)%Q -> to_size a = to_size b.
Proof.
  intros e. unfold to_size. rewrite (Qfloor_comp _ _ e). assert (h1 : Qle_bool a (-1) = Qle_bool b (-1)) by (apply Bool.eq_iff_eq_true; rewrite !Qle_bool_iff, e; reflexivity).
  assert (h2 : Qle_bool (inject_Z two64) a = Qle_bool (inject_Z two64) b) by (apply Bool.eq_iff_eq_true; rewrite !Qle_bool_iff, e; reflexivity). rewrite h1, h2. reflexivity.
Qed.
Lemma inj_sub a b : (inject_Z a - inject_Z b == inject_Z (a - b))%Q.
Proof. unfold Qminus, Zminus. rewrite <- inject_Z_opp, <- inject_Z_plus. reflexivity. Qed.

Lemma write_loop (b : bool) (f : nat -> Q) (g : nat -> Q) n o out : o + n <= length out -> (0 < n -> b = true) -> (forall i, i < n -> (f i == g i)%Q) ->
  exists out', for_ 0 n (fun i out => _ <- need b ;; aset out (o + i) (f i)) out = Some out' /\ length out' = length out /\
    forall j, oeq (nth_error out' j) (if (o <=? j) && (j <? o + n) then Some (g (j - o)) else nth_error out j).
Proof.
  intros ho hb hf. destruct (for_inv (fun m out' => length out' = length out /\ forall j, oeq (nth_error out' j) (if (o <=? j) && (j <? o + m) then Some (g (j - o)) else nth_error out j)) (fun i out => _ <- need b ;; aset out (o + i) (f i)) 0 n out) as (out' & e & h1 & h2).
  - lia.
  - split; [reflexivity|]. intros j. replace ((o <=? j) && (j <? o + 0)) with false by lia. auto.
  - intros i a hi [h1 h2]. rewrite (hb ltac:(lia)). cbn [need bind]. destruct (aset_some a (o + i) (f i)) as [a' e]; [lia|]. exists a'. split; [exact e|]. split; [rewrite (aset_length _ _ _ _ e); exact h1|].
    intros j. rewrite (aset_get _ _ _ _ j e). destruct (Nat.eqb_spec j (o + i)) as [->|hj].
    + replace ((o <=? o + i) && (o + i <? o + S i)) with true by lia. replace (o + i - o) with i by lia. apply hf. lia.
    + specialize (h2 j). replace ((o <=? j) && (j <? o + S i)) with ((o <=? j) && (j <? o + i)) by lia. exact h2.
  - exists out'. splits; auto.
Qed.
Lemma write_loop' (f : nat -> Q) n o out : o + n <= length out ->
  exists out', for_ 0 n (fun i out => aset out (o + i) (f i)) out = Some out' /\ length out' = length out /\
    forall j, oeq (nth_error out' j) (if (o <=? j) && (j <? o + n) then Some (f (j - o)) else nth_error out j).
Proof. intros ho. apply (write_loop true f f n o out); auto. intros; reflexivity. Qed.

Section Path.
Lemma draws_move any m s p : generate s = Move -> (forall k, value p k == 0)%Q -> draws any m s p.
Proof.
  intros hg hv fuel start fin out o hm h1 h2 _ ho. unfold run_generate. rewrite hg. unfold move_generate. replace (start <=? fin)%Z with true by lia. cbn [need bind]. destruct (fill_some out o (Z.to_nat (fin - start)) 0%Q ho) as [out' e]. rewrite e. cbn [bind].
  exists out'. splits; auto; [apply (fill_length _ _ _ _ _ e)|]. intros j. rewrite (fill_get _ _ _ _ _ j e). destruct (_ && _); [|auto]. cbn. symmetry. apply hv.
Qed.
Lemma draws_constant any m s p p0 : generate s = Constant -> aget (points s) 0 = Some p0 -> (forall k, value p k == py p0)%Q -> draws any m s p.
Proof.
  intros hg h0 hv fuel start fin out o hm h1 h2 _ ho. unfold run_generate. rewrite hg. unfold constant_generate. rewrite h0. cbn [bind]. replace (start <=? fin)%Z with true by lia. cbn [need bind].
  destruct (write_loop' (fun _ => py p0) (Z.to_nat (fin - start)) o out ho) as (out' & e & q1 & q2). rewrite e. cbn [bind]. exists out'. splits; auto. intros j. eapply oeq_trans; [apply q2|]. destruct (_ && _); [|auto]. cbn. symmetry. apply hv.
Qed.
(** the first point may have a fractional position if the window starts with the segment *)
Lemma draws_line any m s p p0 p1 : generate s = Line -> aget (points s) 0 = Some p0 -> aget (points s) 1 = Some p1 -> from p = Qfloor (px p0) -> upto p = Qfloor (px p1) -> (px p0 <= px p1)%Q -> (0 <= px p0)%Q -> (px p1 < inject_Z two64)%Q ->
  (any = true -> px p0 == inject_Z (from p))%Q ->
  (forall k, (from p <= k < upto p)%Z -> (value p k == lerp (py p0) (py p1) (inject_Z (k - from p) / (px p1 - px p0)))%Q) -> draws any m s p.
Proof.
  intros hg e0 e1 ha hb h01 h0 hmax hany hv fuel start fin out o hm h1 h2 hw ho. unfold run_generate. rewrite hg. unfold line_generate. rewrite e0, e1. cbn [bind].
  assert (hf0 : (0 <= from p)%Z) by (rewrite ha; change 0%Z with (Qfloor (inject_Z 0)); apply Qfloor_resp_le; exact h0).
  assert (hf1 : (upto p < two64)%Z). { rewrite hb. rewrite Zlt_Qlt. apply Qle_lt_trans with (px p1); [apply Qfloor_le|exact hmax]. }
  assert (es : to_size (inject_Z start - px p0)%Q = Some (start - from p)%Z).
  { destruct (Z.eq_dec start (from p)) as [->|hne].
    - rewrite Z.sub_diag. apply to_size_frac.
      + rewrite ha. pose proof (Qlt_floor (px p0)) as hl. rewrite inject_Z_plus in hl. change (inject_Z 1) with 1%Q in hl. apply (Qplus_lt_l _ _ (px p0 + 1)%Q). ring_simplify. exact hl.
      + rewrite ha. pose proof (Qfloor_le (px p0)) as hl. apply (Qplus_le_l _ _ (px p0)). ring_simplify. exact hl.
    - destruct hw as [hw|[hw _]]; [|congruence]. rewrite (to_size_comp _ (inject_Z (start - from p))); [apply to_size_int; lia|]. rewrite (hany hw). apply inj_sub. }
  rewrite es. cbn [bind]. replace (start <=? fin)%Z with true by lia. cbn [need bind].
  destruct (write_loop (negb (Qeq_bool (px p1 - px p0) 0)) (fun i => lerp (py p0) (py p1) (inject_Z (Z.of_nat i + (start - from p)) / (px p1 - px p0))) (fun i => value p (start + Z.of_nat i)%Z) (Z.to_nat (fin - start)) o out ho) as (out' & e & q1 & q2).
  - intros hn. destruct (Qeq_bool (px p1 - px p0) 0) eqn:eq; [|reflexivity]. apply Qeq_bool_iff in eq. exfalso. assert (hee : (px p1 == px p0)%Q) by (apply (Qplus_inj_r _ _ (- px p0)); rewrite eq; ring). rewrite (Qfloor_comp _ _ hee) in hb. lia.
  - intros i hi. rewrite hv by lia. replace (start + Z.of_nat i - from p)%Z with (Z.of_nat i + (start - from p))%Z by lia. reflexivity.
  - rewrite e. cbn [bind]. exists out'. splits; auto.
Qed.

Lemma pieces_build root l : forall x0 y0, (0 <= x0 < far)%Z -> ascending x0 l -> exists segs, prepare_segments root (inject_Z x0, y0) (map build l) = Some segs /\ length segs = length l /\ pieces true 0 x0 segs (pieces_of x0 y0 l).
Proof.
  induction l as [|a l IH]; intros x0 y0 hx ha; [exists []; splits; auto; apply pieces_nil|]. assert (hfar : (far < two64)%Z) by reflexivity.
  destruct a as [x y|x y|]; cbn [ascending] in ha.
  - destruct ha as [hx1 ha]. destruct (IH x y ltac:(lia) ha) as (segs & e & hl & hp). cbn [map build seg_move prepare_segments points generate PathModel.prepare points_count aset bind run_prepare aget nth_error Nat.sub]. rewrite e. cbn [bind].
    eexists. split; [reflexivity|]. split; [cbn; lia|]. cbn [pieces_of]. change x0 with (from (mkpiece x0 x (fun _ => 0%Q))) at 1. apply pieces_cons; cbn [from upto]; [lia| | |exact hp].
    + exists (inject_Z x0, y0), (inject_Z x, y). splits; auto; apply to_size_int; lia.
    + apply draws_move; [reflexivity|]. intros; reflexivity.
  - destruct ha as [hx1 ha]. destruct (IH x y ltac:(lia) ha) as (segs & e & hl & hp). cbn [map build seg_line prepare_segments points generate PathModel.prepare points_count aset bind run_prepare aget nth_error Nat.sub]. rewrite e. cbn [bind].
    eexists. split; [reflexivity|]. split; [cbn; lia|]. cbn [pieces_of]. set (p := mkpiece x0 x _). change x0 with (from p) at 1. apply pieces_cons; cbn [from upto]; [cbn; lia| | |exact hp].
    + exists (inject_Z x0, y0), (inject_Z x, y). splits; auto; apply to_size_int; cbn; lia.
    + apply (draws_line true 0 _ p (inject_Z x0, y0) (inject_Z x, y)); cbn [px py fst snd points aget nth_error generate]; auto; try (rewrite Qfloor_Z; reflexivity).
      * rewrite <- Zle_Qle. lia.
      * change 0%Q with (inject_Z 0). rewrite <- Zle_Qle. lia.
      * rewrite <- Zlt_Qlt. lia.
      * reflexivity.
      * intros k hk. unfold p, lerp, straight. cbn [value from]. rewrite inj_sub. ring.
  - subst l. cbn [map build seg_constant prepare_segments points generate PathModel.prepare points_count aset bind run_prepare aget nth_error Nat.sub prepare_segments]. cbn [bind aset aget nth_error]. eexists. split; [reflexivity|]. split; [reflexivity|].
    cbn [pieces_of]. set (p := mkpiece x0 far _). change x0 with (from p) at 1. apply pieces_cons; cbn [from upto p]; [lia| | |apply pieces_nil].
    + exists (inject_Z x0, y0), (size_max, y0). splits; auto; apply to_size_int; lia.
    + apply (draws_constant _ _ _ _ (inject_Z x0, y0)); auto. intros; reflexivity.
Qed.

Lemma forall2_nth (l l' : list Q) : length l = length l' -> (forall j, oeq (nth_error l j) (nth_error l' j)) -> Forall2 Qeq l l'.
Proof.
  revert l'. induction l as [|a l IH]; intros [|b l'] hl h; try discriminate; constructor; [exact (h 0)|]. apply IH; [cbn in hl; lia|]. intros j. exact (h (S j)).
Qed.
Lemma samples_of_get ps a b j : j < Z.to_nat (b - a) -> nth_error (samples_of ps (a, b)) j = Some (value_at ps (a + Z.of_nat j)).
Proof. intros hj. unfold samples_of. cbn [fst snd]. rewrite nth_error_map. rewrite nth_error_nth' with (d := 0) by (rewrite seq_length; exact hj). rewrite seq_nth by exact hj. reflexivity. Qed.
Lemma get_all_spec l ps : pieces true 0 0 l ps -> forall fuel ws current previous pfin, current < length l -> (Forall (fun p => upto p <= pfin) (firstn current ps))%Z -> allowed previous pfin ws ->
  exists outs, get_all fuel (mkpath l current previous) ws = Some outs /\ Forall2 (Forall2 Qeq) outs (map (samples_of ps) ws).
Proof.
  intros hall fuel ws. induction ws as [|[a b] ws IH]; intros current previous pfin hc hf hw; [exists []; split; [reflexivity|constructor]|]. destruct hw as (h1 & h2 & h3).
  destruct (path_get_spec true 0 l ps hall fuel a b 0 current previous pfin (repeat 0%Q (Z.to_nat (b - a))) (Nat.le_0_l _) h1 (or_introl eq_refl) hc hf h2 ltac:(rewrite repeat_length; lia)) as (out & c' & e & q1 & q2 & q3 & q4).
  destruct (IH c' a b q2 q3 h3) as (outs & eo & ho). exists (out :: outs). cbn [get_all]. rewrite e. cbn [bind]. rewrite eo. cbn [bind]. split; [reflexivity|]. constructor; [|exact ho].
  rewrite repeat_length in q1. apply forall2_nth; [unfold samples_of; rewrite map_length, seq_length; exact q1|]. intros j. eapply oeq_trans; [apply q4|]. destruct (Nat.lt_ge_cases j (Z.to_nat (b - a))) as [hj|hj].
  - replace ((0 <=? j) && (j <? 0 + Z.to_nat (b - a))) with true by lia. rewrite samples_of_get by exact hj. rewrite Nat.sub_0_r. unfold value_at. destruct (piece_at ps _); [apply oeq_refl|]. rewrite nth_error_repeat by exact hj. apply oeq_refl.
  - replace ((0 <=? j) && (j <? 0 + Z.to_nat (b - a))) with false by lia. rewrite (proj2 (nth_error_None _ _)) by (rewrite repeat_length; exact hj). rewrite (proj2 (nth_error_None (samples_of ps (a, b)) j)) by (unfold samples_of; rewrite map_length, seq_length; exact hj). exact I.
Qed.
Lemma path_windows root fuel parts ws : parts <> [] -> ascending 0 parts -> allowed 0 0 ws ->
  exists p outs, path_set root (map build parts) = Some p /\ get_all fuel p ws = Some outs /\ Forall2 (Forall2 Qeq) outs (map (samples_of (pieces_of 0 0 parts)) ws).
Proof.
  intros hp ha hw. destruct (pieces_build root parts 0 0%Q ltac:(unfold far; lia) ha) as (segs & e & hl & hs). exists (mkpath segs 0 0). destruct (get_all_spec segs _ hs fuel ws 0 0 0) as (outs & eo & ho); auto.
  - rewrite hl. destruct parts; [congruence|cbn; lia].
  - constructor.
  - exists outs. splits; auto. unfold path_set. change zero with (inject_Z 0, 0%Q). rewrite e. reflexivity.
Qed.
End Path.
