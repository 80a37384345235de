From Coq Require Import QArith Qround Qabs Lqa Lia.
From Verif Require Import Base PathModel PathSpec PathProofs.
Close Scope Q_scope.

Lemma inject_minus a b : inject_Z (a - b) = (inject_Z a - inject_Z b)%Q.
Proof. unfold Z.sub. rewrite inject_Z_plus, inject_Z_opp. reflexivity. Qed.
(** x positions of a quadratic curve at the start of a window *)
Lemma round_below v (start x : Z) : (0 < start)%Z -> (v < inject_Z start - (1 # 2))%Q -> to_size (qround v) = Some x -> (x < start)%Z.
Proof.
  intros hs hv e. unfold to_size, qround in e. rewrite Qfloor_Z in e. destruct (_ || _)%bool; [discriminate|]. assert (ex : Z.max 0 (if Qle_bool 0 v then Qfloor (v + (1 # 2)) else Qceiling (v - (1 # 2))) = x) by congruence. subst x. apply Z.max_lub_lt; [exact hs|].
  destruct (Qle_bool 0 v).
  - rewrite Zlt_Qlt. eapply Qle_lt_trans; [apply Qfloor_le|]. lra.
  - pose proof (Qceiling_lt (v - (1 # 2))) as h. assert (h2 : (inject_Z (Qceiling (v - (1 # 2)) - 1) < inject_Z (start - 1))%Q) by (eapply Qlt_le_trans; [exact h|]; rewrite inject_minus; change (inject_Z 1) with 1%Q; lra).
    rewrite <- Zlt_Qlt in h2. lia.
Qed.
Definition late (x0 x2 start : Z) (c : Q) : Prop :=
  (c <= (inject_Z x0 + inject_Z x2) / 2)%Q /\ (x0 + 2 <= start)%Z \/ (c <= inject_Z x2)%Q /\ (2 * (x2 - x0) < (start - x0) * (start - x0))%Z.
Lemma curve_early (x0 x2 start : Z) (c t : Q) : (0 <= x0)%Z -> (x0 < start < x2)%Z -> late x0 x2 start c -> (t == inject_Z (start - x0) / (2 * (inject_Z x2 - inject_Z x0)))%Q ->
  (inject_Z x0 * (1 - t) * (1 - t) + c * 2 * (1 - t) * t + inject_Z x2 * t * t < inject_Z start - (1 # 2))%Q.
Proof.
  intros h0 h1 hl ht. set (S := (inject_Z x2 - inject_Z x0)%Q) in *. set (i := (inject_Z (start - x0))%Q) in *.
  assert (ei : (i == inject_Z start - inject_Z x0)%Q) by (unfold i; rewrite inject_minus; reflexivity).
  assert (hS : (1 < S)%Q). { unfold S. assert (h : (inject_Z (x0 + 1) < inject_Z x2)%Q) by (rewrite <- Zlt_Qlt; lia). rewrite inject_Z_plus in h. change (inject_Z 1) with 1%Q in h. lra. }
  assert (hi : (1 <= i)%Q) by (unfold i; change 1%Q with (inject_Z 1); rewrite <- Zle_Qle; lia).
  assert (hiS : (i < S)%Q) by (rewrite ei; unfold S; assert (h : (inject_Z start < inject_Z x2)%Q) by (rewrite <- Zlt_Qlt; lia); lra).
  assert (e1 : (2 * S * t == i)%Q) by (rewrite ht; field; lra).
  assert (t0 : (0 <= t)%Q) by nra. assert (t1 : (t <= 1)%Q) by nra. assert (p : (0 <= (1 - t) * t)%Q) by nra.
  set (k := (c - inject_Z x0)%Q). assert (ex : (inject_Z x0 * (1 - t) * (1 - t) + c * 2 * (1 - t) * t + inject_Z x2 * t * t == inject_Z x0 + 2 * k * ((1 - t) * t) + S * t * t)%Q) by (unfold k, S; ring).
  rewrite ex. assert (goal : (2 * k * ((1 - t) * t) + S * t * t < i - (1 # 2))%Q); [|rewrite ei in goal; lra]. destruct hl as [[hc hs]|[hc hs]].
  - assert (hk : (2 * k <= S)%Q) by (unfold k, S; assert ((inject_Z x0 + inject_Z x2) / 2 == (1 # 2) * (inject_Z x0 + inject_Z x2))%Q by field; lra).
    assert (hi2 : (2 <= i)%Q) by (unfold i; change 2%Q with (inject_Z 2); rewrite <- Zle_Qle; lia).
    assert (g1 : (2 * k * ((1 - t) * t) <= S * ((1 - t) * t))%Q) by (apply Qmult_le_compat_r; assumption). assert (g2 : (S * ((1 - t) * t) + S * t * t == S * t)%Q) by ring. lra.
  - assert (hk : (k <= S)%Q) by (unfold k, S; lra). assert (hi2 : (2 * S < i * i)%Q) by (unfold i, S; rewrite <- inject_minus, <- inject_Z_mult; change 2%Q with (inject_Z 2); rewrite <- inject_Z_mult, <- Zlt_Qlt; exact hs).
    assert (g1 : (2 * k * ((1 - t) * t) <= 2 * S * ((1 - t) * t))%Q) by (apply Qmult_le_compat_r; [lra|assumption]).
    assert (g2 : (2 * S * ((1 - t) * t) + S * t * t == i - S * t * t)%Q) by (rewrite <- e1; ring).
    assert (g3 : ((1 # 2) < S * t * t)%Q). { assert (4 * S * (S * t * t) == i * i)%Q by (rewrite <- e1; ring). nra. }
    lra.
Qed.
Lemma bezier_window fuel (x0 x2 start fin : Z) (y0 c yc y2 : Q) rest prep out o : (0 <= x0)%Z -> (x0 < start < x2)%Z -> (start < fin)%Z -> late x0 x2 start c -> (x2 < two32)%Z -> (0 < fuel) ->
  run_generate fuel start fin (mkseg 3 ((inject_Z x0, y0) :: (c, yc) :: (inject_Z x2, y2) :: rest) Bezier1 prep) out o = None.
Proof.
  intros h0 h1 hf hl h32 hfu. cbn [run_generate generate]. unfold beziern_generate. cbn [points points_count aget nth_error bind Nat.sub px fst]. destruct (Z.leb_spec start fin); [|lia]. cbn [need bind].
  rewrite <- inject_minus. rewrite to_size_int by (unfold two32, two64 in *; lia). cbn [bind]. destruct fuel as [|fuel]; [lia|]. cbn [bezier_loop]. destruct (_ <? _)%Z; [|reflexivity]. cbn [bind].
  unfold bezier_body. destruct (x_at _ _ _ _) as [x|] eqn:ex; [|reflexivity]. cbn [bind]. destruct (at_index _ _ _ _ py) as [y|]; [|reflexivity]. cbn [bind].
  assert (hx : (x < start)%Z).
  { unfold x_at, at_index in ex. destruct (need _) in ex; [|discriminate]. cbn [bind bezier1_interpolate aget nth_error px fst] in ex. apply (round_below _ start x ltac:(lia)) in ex; [exact ex|]. apply curve_early; try assumption. rewrite Z2Nat.id by lia. rewrite inject_minus. reflexivity. }
  destruct (Z.ltb_spec x fin); [|lia]. destruct (Z.leb_spec start x); [lia|]. reflexivity.
Qed.
Lemma path_window root fuel (x0 x2 start fin : Z) (y0 c yc y2 : Q) : (0 <= x0)%Z -> (x0 < start < x2)%Z -> (start < fin)%Z -> late x0 x2 start c -> (x2 < two32)%Z -> (0 < fuel) ->
  exists p, path_set root [seg_move (inject_Z x0) y0; seg_bezier1 c yc (inject_Z x2) y2] = Some p /\ get_all fuel p [(start, fin)] = None.
Proof.
  intros h0 h1 hf hl h32 hfu. exists (mkpath [mkseg 2 [zero; (inject_Z x0, y0); zero; zero] Move NoPrepare; mkseg 3 [(inject_Z x0, y0); (c, yc); (inject_Z x2, y2); zero] Bezier1 NoPrepare] 0 0). split; [reflexivity|]. cbn [get_all]. unfold path_get. cbn [previous_start current_segment_index segments length]. destruct (Z.ltb_spec start 0); [lia|]. cbn [Nat.sub].
  cbn [get_loop aget nth_error bind points points_count Nat.sub px fst zero]. change 0%Q with (inject_Z 0). rewrite !to_size_int by (unfold two32, two64 in *; lia). cbn [bind].
  destruct (Z.ltb_spec fin 0); [lia|]. destruct (Z.ltb_spec x0 start); [|lia]. destruct (Z.ltb_spec fin x0); [lia|]. destruct (Z.ltb_spec x2 start); [lia|]. destruct (Z.ltb_spec start x0); [lia|].
  rewrite bezier_window; try assumption; try reflexivity. destruct (Z.ltb_spec fin x2); lia.
Qed.
