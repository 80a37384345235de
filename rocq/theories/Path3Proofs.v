(** Proofs about sp_path_samples without curves. *)
From Coq Require Import QArith Qround Lqa.
From Verif Require Import Base PathModel PathSpec PathProofs Path2Proofs.
Close Scope Q_scope.

Fixpoint line_pieces (p0 : point) (l : list point) : list piece :=
  match l with
  | [] => []
  | p1 :: l => mkpiece (Qfloor (px p0)) (Qfloor (px p1)) (fun k => lerp (py p0) (py p1) (inject_Z (k - Qfloor (px p0)) / (px p1 - px p0))%Q) :: line_pieces p1 l
  end.
Lemma last_any {A} (l : list A) : forall a b c, last (c :: l) a = last (c :: l) b.
Proof. induction l as [|d l IH]; intros a b c; [reflexivity|]. exact (IH a b d). Qed.
Lemma last_cons {A} (l : list A) a c : last (c :: l) a = last l c.
Proof. destruct l as [|d l]; [reflexivity|]. change (last (d :: l) a = last (d :: l) c). apply last_any. Qed.
Definition line_of (p : point) : segment := seg_line (px p) (py p).
Lemma pieces_lines root l : forall p0, (0 <= px p0)%Q -> sorted (px p0 :: map px l) -> Forall (fun p => px p < inject_Z two64)%Q l ->
  (px p0 < inject_Z two64)%Q ->
  exists segs, prepare_segments root p0 (map line_of l) = Some segs /\ length segs = length l /\ pieces false 0 (Qfloor (px p0)) segs (line_pieces p0 l).
Proof.
  induction l as [|p1 l IH]; intros p0 h0 hs hm hm0; [exists []; splits; auto; apply pieces_nil|].
  cbn [map] in hs. destruct hs as [h01 hs]. inversion hm as [|? ? hm1 hm']; subst.
  assert (h1 : (0 <= px p1)%Q) by (apply Qle_trans with (px p0); assumption).
  destruct (IH p1 h1 hs hm' hm1) as (segs & e & hl & hp). cbn [map line_of seg_line prepare_segments points generate PathModel.prepare points_count aset bind run_prepare aget nth_error Nat.sub].
  replace (px p1, py p1) with p1 by (destruct p1; reflexivity). rewrite e. cbn [bind].
  eexists. split; [reflexivity|]. split; [cbn; lia|]. cbn [line_pieces]. set (p := mkpiece _ _ _). change (Qfloor (px p0)) with (from p) at 1.
  assert (hf0 : (0 <= Qfloor (px p0))%Z) by (change 0%Z with (Qfloor (inject_Z 0)); apply Qfloor_resp_le; exact h0).
  assert (hf : (Qfloor (px p0) <= Qfloor (px p1))%Z) by (apply Qfloor_resp_le; exact h01).
  apply pieces_cons; cbn [from upto p]; [lia| | |exact hp].
  - exists p0, p1. splits; auto; apply to_size_floor; auto.
  - apply (draws_line false 0 _ p p0 p1); cbn [points aget nth_error generate]; auto; [discriminate|]. intros k hk. reflexivity.
Qed.
Lemma line_piece_at l : forall p0 k i p q, sorted (px p0 :: map px l) -> nth_error (p0 :: l) i = Some p -> nth_error (p0 :: l) (S i) = Some q -> (Qfloor (px p) <= k < Qfloor (px q))%Z ->
  exists r, piece_at (line_pieces p0 l) k = Some r /\ value r k = lerp (py p) (py q) (inject_Z (k - Qfloor (px p)) / (px q - px p))%Q.
Proof.
  induction l as [|p1 l IH]; intros p0 k i p q hs hp hq hk; [destruct i; discriminate|]. destruct i as [|i].
  - cbn in hp, hq. injection hp as <-. injection hq as <-. unfold piece_at. cbn [line_pieces find from upto]. replace ((Qfloor (px p0) <=? k)%Z && (k <? Qfloor (px p1))%Z) with true by lia. eexists. split; reflexivity.
  - cbn [nth_error] in hp, hq. destruct hs as [h01 hs]. destruct (IH p1 k i p q hs hp hq hk) as (r & e & ev). exists r. split; [|exact ev]. unfold piece_at in *. cbn [line_pieces find from upto].
    replace ((Qfloor (px p0) <=? k)%Z && (k <? Qfloor (px p1))%Z) with false; [exact e|]. symmetry. apply andb_false_iff. right. apply Z.ltb_ge. apply Z.le_trans with (Qfloor (px p)); [|lia]. apply Qfloor_resp_le.
    clear -hs hp. revert p1 i hs hp. induction l as [|a l IH]; intros p1 [|i] hs hp; cbn in hp; try (destruct i; discriminate); try (injection hp as <-; apply Qle_refl); try discriminate. destruct hs as [h hs]. apply Qle_trans with (px a); [exact h|]. apply (IH a i hs hp).
Qed.
Lemma line_piece_ex l : forall p0 k, (Qfloor (px p0) <= k < Qfloor (last (map px l) (px p0)))%Z -> exists i p q, nth_error (p0 :: l) i = Some p /\ nth_error (p0 :: l) (S i) = Some q /\ (Qfloor (px p) <= k < Qfloor (px q))%Z.
Proof.
  induction l as [|p1 l IH]; intros p0 k hk; [cbn in hk; lia|]. destruct (Z.lt_ge_cases k (Qfloor (px p1))) as [h|h].
  - exists 0, p0, p1. splits; auto; lia.
  - destruct (IH p1 k) as (i & p & q & h1 & h2 & h3). { split; [exact h|]. cbn [map] in hk. rewrite last_cons in hk. apply hk. } exists (S i), p, q. exact (conj h1 (conj h2 h3)).
Qed.

Definition flat (c : option (list Q)) (n : nat) : Prop := match c with Some cs => length cs = n /\ Forall (fun a => a < 1 # 100000)%Q cs | None => True end.
Lemma curve_flat c n i : flat c n -> i < n -> exists a, curve_at c i = Some a /\ qlt a (1 # 100000) = true.
Proof.
  intros hf hi. destruct c as [cs|]; cbn [curve_at flat] in *; [|exists 0%Q; auto]. destruct hf as [hl hf]. destruct (nth_error_some cs i) as [a e]; [lia|]. exists a. split; [exact e|]. rewrite Forall_forall in hf. specialize (hf a (nth_error_In _ _ e)). unfold qlt. destruct (Qle_bool (1 # 100000) a) eqn:el; [|reflexivity]. apply Qle_bool_iff in el. exfalso. apply (Qle_not_lt _ _ el hf).
Qed.

Lemma map_px_knots size x y : length y = length x + 2 -> map px (knots size x y) = 0%Q :: x ++ [inject_Z size].
Proof.
  intros h. unfold knots. assert (h' : length (0%Q :: x ++ [inject_Z size]) = length y) by (cbn [length]; rewrite app_length; cbn; lia). revert h'. clear. generalize (0%Q :: x ++ [inject_Z size]). intros l. revert y. induction l as [|a l IH]; intros [|b y] h; try discriminate; [reflexivity|]. cbn. f_equal. apply IH. cbn in h. lia.
Qed.
(** the segments *)
Lemma samples_segments size n x y c y0 yn cn : 2 <= n <= 24 -> length y = n -> length x = n - 2 -> flat c (n - 1) -> aget y 0 = Some y0 -> aget y (n - 1) = Some yn -> qlt cn (1 # 100000) = true ->
  exists segs0 segs1 segs2, aset (repeat (mkseg 0 [] Move NoPrepare) 24) 0 (seg_move 0 y0) = Some segs0 /\ aset segs0 (n - 1) (path_segment (inject_Z size) yn cn) = Some segs1 /\
    for_ 1 (n - 1) (fun i segs => xn <- aget x (i - 1) ;; yn <- aget y i ;; cn <- curve_at c (i - 1) ;; aset segs i (path_segment xn yn cn)) segs1 = Some segs2 /\
    slice segs2 0 n = Some (seg_move 0 y0 :: map line_of (tl (knots size x y))).
Proof.
  intros hn hy hx hc e0 en ec. destruct (aset_some (repeat (mkseg 0 [] Move NoPrepare) 24) 0 (seg_move 0 y0)) as [s0 es0]; [rewrite repeat_length; lia|]. pose proof (aset_length _ _ _ _ es0) as l0. rewrite repeat_length in l0.
  destruct (aset_some s0 (n - 1) (path_segment (inject_Z size) yn cn)) as [s1 es1]; [lia|]. pose proof (aset_length _ _ _ _ es1) as l1. rewrite l0 in l1.
  exists s0, s1. assert (hps : path_segment (inject_Z size) yn cn = seg_line (inject_Z size) yn) by (unfold path_segment; rewrite ec; reflexivity).
  destruct (for_inv (fun m s2 => length s2 = 24 /\ nth_error s2 0 = Some (seg_move 0 y0) /\ nth_error s2 (n - 1) = Some (seg_line (inject_Z size) yn) /\ forall i, 1 <= i < m -> exists a b, aget x (i - 1) = Some a /\ aget y i = Some b /\ nth_error s2 i = Some (seg_line a b))
    (fun i segs => xn <- aget x (i - 1) ;; yn <- aget y i ;; cn <- curve_at c (i - 1) ;; aset segs i (path_segment xn yn cn)) 1 (n - 1) s1) as (s2 & es2 & l2 & g0 & g1 & g2).
  - lia.
  - splits; [exact l1| | |intros; lia].
    + rewrite (aset_get _ _ _ _ 0 es1). replace (0 =? n - 1) with false by lia. rewrite (aset_get _ _ _ _ 0 es0). reflexivity.
    + rewrite (aset_get _ _ _ _ (n - 1) es1), Nat.eqb_refl, hps. reflexivity.
  - intros i s2 hi (l2 & g0 & g1 & g2). destruct (nth_error_some x (i - 1)) as [a ea]; [lia|]. destruct (nth_error_some y i) as [b eb]; [lia|]. destruct (curve_flat c (n - 1) (i - 1) hc ltac:(lia)) as (v & ev & hv).
    unfold aget at 1. rewrite ea. cbn [bind]. unfold aget at 1. rewrite eb. cbn [bind]. rewrite ev. cbn [bind]. destruct (aset_some s2 i (path_segment a b v)) as [s3 es3]; [lia|]. exists s3. split; [exact es3|]. splits.
    + rewrite (aset_length _ _ _ _ es3). exact l2.
    + rewrite (aset_get _ _ _ _ 0 es3). replace (0 =? i) with false by lia. exact g0.
    + rewrite (aset_get _ _ _ _ _ es3). replace (n - 1 =? i) with false by lia. exact g1.
    + intros i' hi'. rewrite (aset_get _ _ _ _ i' es3). destruct (Nat.eqb_spec i' i) as [->|hne]; [|apply g2; lia]. exists a, b. splits; auto. unfold path_segment. rewrite hv. reflexivity.
  - exists s2. splits; auto. unfold slice. replace (0 + n <=? length s2) with true by lia. cbn [skipn]. f_equal. apply nth_error_ext. intros i.
    assert (hk : length (knots size x y) = n). { rewrite <- (map_length px), map_px_knots by lia. cbn [length]. rewrite app_length. cbn. lia. }
    destruct (Nat.lt_ge_cases i n) as [hi|hi].
    + rewrite nth_error_firstn by lia. destruct i as [|i]; [exact g0|]. change (nth_error (seg_move 0 y0 :: map line_of (tl (knots size x y))) (S i)) with (nth_error (map line_of (tl (knots size x y))) i). rewrite nth_error_map.
      assert (et : forall A (l : list A) j, nth_error (tl l) j = nth_error l (S j)) by (intros A [|? l] [|j]; reflexivity). rewrite et. unfold knots.
      assert (ec2 : forall A B (l : list A) (l' : list B) j u v, nth_error l j = Some u -> nth_error l' j = Some v -> nth_error (combine l l') j = Some (u, v)).
      { intros A B l. induction l as [|u l IH]; intros [|v l'] [|j] u' v' h1 h2; cbn in *; try discriminate; try congruence. apply IH; assumption. }
      destruct (Nat.eq_dec (S i) (n - 1)) as [he|he].
      * replace (nth_error s2 (S i)) with (nth_error s2 (n - 1)) by (rewrite he; reflexivity). rewrite g1. match goal with |- _ = option_map _ ?r => assert (er : r = Some (inject_Z size, yn)) end; [|rewrite er; reflexivity]. apply ec2; [|rewrite he; exact en]. cbn [nth_error]. rewrite nth_error_app2 by lia. replace (i - length x) with 0 by lia. reflexivity.
      * destruct (g2 (S i) ltac:(lia)) as (a & b & ha & hb & hs). rewrite hs. match goal with |- _ = option_map _ ?r => assert (er : r = Some (a, b)) end; [|rewrite er; reflexivity]. apply ec2; [|exact hb]. cbn [nth_error]. replace (S i - 1) with i in ha by lia. rewrite nth_error_app1; [exact ha|]. lia.
    + rewrite nth_error_firstn_ge by lia. symmetry. apply nth_error_None. cbn [length]. rewrite map_length. destruct (knots size x y); cbn [tl length] in *; lia.
Qed.
Lemma sorted_last l : forall a, sorted (a :: l) -> (forall b, In b (a :: l) -> b <= last l a)%Q.
Proof.
  induction l as [|c l IH]; intros a hs b hb; [destruct hb as [<-|[]]; apply Qle_refl|]. destruct hs as [h hs]. rewrite last_cons. destruct hb as [<-|hb]; [apply Qle_trans with c; [exact h|apply IH; cbn; auto]|apply IH; auto].
Qed.

Lemma path_samples_lines root fuel size n x y c : 2 <= n <= 24 -> length y = n -> length x = n - 2 -> flat c (n - 1) -> sorted (0%Q :: x ++ [inject_Z size]) -> (0 <= size < two32)%Z ->
  exists out, path_samples root fuel size n x y c = Some (true, out) /\ length out = Z.to_nat size /\
    (forall i p q k, nth_error (knots size x y) i = Some p -> nth_error (knots size x y) (S i) = Some q -> (Qfloor (px p) <= Z.of_nat k < Qfloor (px q))%Z ->
      exists v, nth_error out k = Some v /\ (v == lerp (py p) (py q) (inject_Z (Z.of_nat k - Qfloor (px p)) / (px q - px p)))%Q) /\
    (forall k, k < Z.to_nat size -> exists i p q, nth_error (knots size x y) i = Some p /\ nth_error (knots size x y) (S i) = Some q /\ (Qfloor (px p) <= Z.of_nat k < Qfloor (px q))%Z).
Proof.
  intros hn hy hx hc hs hsz. unfold path_samples.
  destruct (nth_error_some y (n - 1)) as [yn en]; [lia|]. destruct (nth_error_some y 0) as [y0 e0]; [lia|]. destruct (curve_flat c (n - 1) (n - 1 - 1) hc ltac:(lia)) as (cn & ecn & hcn).
  unfold aget at 1. rewrite en. cbn [bind]. assert (ec : match c with Some _ => _ <- need (1 <=? n - 1) ;; curve_at c (n - 1 - 1) | None => Some 0%Q end = Some cn) by (destruct c; [rewrite (proj2 (Nat.leb_le 1 (n - 1))) by lia; exact ecn|exact ecn]). rewrite ec. cbn [bind]. unfold aget at 1. rewrite e0. cbn [bind].
  destruct (samples_segments size n x y c y0 yn cn hn hy hx hc e0 en hcn) as (s0 & s1 & s2 & es0 & es1 & es2 & es3). rewrite es0. cbn [bind]. rewrite es1. cbn [bind]. rewrite es2. cbn [bind]. rewrite es3. cbn [bind].
  pose proof (map_px_knots size x y ltac:(lia)) as hm. destruct (knots size x y) as [|k0 kn] eqn:ek; [discriminate|]. cbn [tl].
  assert (hk0 : k0 = (0%Q, y0)). { unfold knots in ek. destruct y as [|b y]; [discriminate|]. cbn in ek, e0. congruence. }
  cbn [map] in hm. injection hm as hm0 hm1.
  assert (hsz64 : (inject_Z size < inject_Z two64)%Q) by (rewrite <- Zlt_Qlt; unfold two32, two64 in *; lia).
  assert (hlastx : last (map px kn) 0%Q = inject_Z size) by (rewrite hm1; apply last_last).
  assert (hall : Forall (fun p => px p < inject_Z two64)%Q kn). { apply Forall_forall. intros p hp. apply Qle_lt_trans with (inject_Z size); [|exact hsz64]. rewrite <- hlastx. rewrite <- hm1 in hs. apply (sorted_last _ _ hs). right. apply in_map. exact hp. }
  destruct (pieces_lines root kn (0%Q, y0)) as (segs & e & hl & hp); [cbn; lra|cbn [px fst]; rewrite hm1; exact hs|exact hall|cbn; reflexivity|].
  unfold path_set. cbn [prepare_segments seg_move points aset bind run_prepare points_count generate PathModel.prepare aget nth_error Nat.sub]. rewrite e. cbn [bind].
  set (m := mkseg 2 [zero; (0%Q, y0); zero; zero] Move NoPrepare). set (ps := mkpiece 0 0 (fun _ => 0%Q) :: line_pieces (0%Q, y0) kn).
  assert (hpp : pieces false 0 0 (m :: segs) ps).
  { change 0%Z with (from (mkpiece 0 0 (fun _ => 0%Q))) at 1. apply pieces_cons; cbn [from upto]; [lia| | |exact hp].
    - exists zero, (0%Q, y0). splits; reflexivity.
    - apply draws_move; [reflexivity|intros; reflexivity]. }
  assert (hne : forall p, In p ps -> (from p < upto p -> from p < size)%Z).
  { intros p hin hlt. destruct hin as [<-|hin]; [cbn in hlt; lia|]. apply Z.lt_le_trans with (upto p); [exact hlt|]. assert (hall' : Forall (fun q => px q <= inject_Z size)%Q kn). { apply Forall_forall. intros q hq. rewrite <- hlastx. rewrite <- hm1 in hs. apply (sorted_last _ _ hs). right. apply in_map. exact hq. }
    clear -hin hall'. revert hin. generalize (0%Q, y0) as p0. induction hall' as [|q kn hq hk IH]; intros p0 hin; [destruct hin|]. destruct hin as [<-|hin]; [|apply (IH q hin)]. cbn [upto]. rewrite <- (Qfloor_Z size). apply Qfloor_resp_le. exact hq. }
  destruct (path_get_spec false 0 _ _ hpp fuel 0 size 0 0 0 0 (repeat 0%Q (Z.to_nat size)) ltac:(lia) ltac:(lia) (or_intror (conj eq_refl hne)) ltac:(cbn; lia) ltac:(constructor) ltac:(lia) ltac:(rewrite repeat_length; lia)) as (out & c' & eo & q1 & q2 & q3 & q4).
  rewrite eo. cbn [bind]. exists out. split; [reflexivity|]. rewrite repeat_length in q1. split; [exact q1|].
  assert (hsf : Qfloor (last (map px kn) 0%Q) = size) by (rewrite hlastx; apply Qfloor_Z).
  split.
  - intros i p q k hp1 hq1 hk.
    assert (hks : (Z.of_nat k < size)%Z). { destruct hk as [_ hk]. apply Z.lt_le_trans with (Qfloor (px q)); [exact hk|]. rewrite <- hsf. apply Qfloor_resp_le. rewrite <- hm1 in hs. apply (sorted_last _ _ hs). right. apply in_map. apply (nth_error_In _ i). exact hq1. }
    rewrite hk0 in hp1. destruct (line_piece_at kn (0%Q, y0) (Z.of_nat k) i p q) as (r & er & ev); auto. { cbn [px fst]. rewrite hm1. exact hs. }
    specialize (q4 k). rewrite Z.sub_0_r in q4. replace ((0 <=? k) && (k <? 0 + Z.to_nat size)) with true in q4 by lia. rewrite Nat.sub_0_r in q4. replace (0 + Z.of_nat k)%Z with (Z.of_nat k) in q4 by lia.
    assert (ep : piece_at ps (Z.of_nat k) = Some r). { unfold piece_at, ps. cbn [find from upto]. replace ((0 <=? Z.of_nat k)%Z && (Z.of_nat k <? 0)%Z) with false by lia. exact er. }
    rewrite ep in q4. destruct (nth_error out k) as [v|]; [|contradiction]. exists v. split; [reflexivity|]. cbn [oeq] in q4. rewrite q4, ev. reflexivity.
  - intros k hk. rewrite hk0. apply line_piece_ex. cbn [px fst]. rewrite hsf. cbn. lia.
Qed.
