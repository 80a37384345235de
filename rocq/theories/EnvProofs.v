From Coq Require Import QArith Qround Qabs Lqa.
From Verif Require Import Base MiscModel MiscProofs ScaleModel ScaleSpec ScaleProofs Scale2Proofs PathModel PathSpec PathProofs Path2Proofs Path3Proofs EnvModel EnvSpec.
Close Scope Q_scope.

Lemma line_value_same a b k v : same_points a b -> line_value a k v -> line_value b k v.
Proof.
  intros S (i & p & q & Ep & Eq & B & V).
  assert (G : forall j r, nth_error a j = Some r -> exists r', nth_error b j = Some r' /\ (px r == px r')%Q /\ (py r == py r')%Q).
  { clear - S. induction S as [|x y a b [H1 H2] S IH]; intros [|j] r E; cbn in E; try discriminate.
    - injection E as <-. exists y. auto. - exact (IH j r E). }
  destruct (G _ _ Ep) as (p' & Ep' & P1 & P2). destruct (G _ _ Eq) as (q' & Eq' & Q1 & Q2).
  exists i, p', q'. rewrite <- (Qfloor_comp _ _ P1), <- (Qfloor_comp _ _ Q1). split; [exact Ep'|]. split; [exact Eq'|]. split; [exact B|].
  rewrite V. generalize (inject_Z (Z.of_nat k - Qfloor (px p))). intro d.
  apply Qplus_comp; [exact P2|]. apply Qmult_comp; [|apply Qplus_comp; [exact Q2|now apply Qopp_comp]].
  apply Qdiv_comp; [reflexivity|]. apply Qplus_comp; [exact Q1|now apply Qopp_comp].
Qed.
Lemma follows_same size a b out : same_points a b -> follows_lines size a out -> follows_lines size b out.
Proof. intros S [L F]. split; auto. intros k K. destruct (F k K) as (v & E & V). exists v. split; auto. eapply line_value_same; eauto. Qed.
Lemma rounds_same size a b out : same_points a b -> rounds_lines size a out -> rounds_lines size b out.
Proof. intros S [L F]. split; auto. intros k K. destruct (F k K) as (z & v & E & V & R). exists z, v. splits; auto. eapply line_value_same; eauto. Qed.

Lemma line_value_between points k v lo hi : (forall p, In p points -> lo <= py p <= hi)%Q -> line_value points k v -> (lo <= v <= hi)%Q.
Proof.
  intros H (i & p & q & Ep & Eq & B & V). pose proof (H p (nth_error_In _ _ Ep)) as HP. pose proof (H q (nth_error_In _ _ Eq)) as HQ.
  pose proof (Qfloor_le (px q)). pose proof (Qlt_floor (px p)). rewrite inject_Z_plus in H1. change (inject_Z 1) with 1%Q in H1.
  assert (D : (0 <= inject_Z (Z.of_nat k - Qfloor (px p)))%Q) by (change 0%Q with (inject_Z 0); rewrite <- Zle_Qle; lia).
  assert (D2 : (inject_Z (Z.of_nat k - Qfloor (px p)) <= inject_Z (Qfloor (px q) - 1 - Qfloor (px p)))%Q) by (rewrite <- Zle_Qle; lia).
  unfold Zminus in D2 at 2 3. rewrite !inject_Z_plus, !inject_Z_opp in D2. change (inject_Z 1) with 1%Q in D2.
  set (d := inject_Z (Z.of_nat k - Qfloor (px p))) in *.
  assert (W : (0 < px q - px p)%Q).
  { assert (L : (inject_Z (Qfloor (px p) + 1) <= inject_Z (Qfloor (px q)))%Q) by (rewrite <- Zle_Qle; lia). rewrite inject_Z_plus in L. change (inject_Z 1) with 1%Q in L. lra. }
  set (w := (px q - px p)%Q) in *.
  assert (T0 : (0 <= d / w)%Q) by (apply Qle_shift_div_l; auto; lra).
  assert (T1 : (d / w <= 1)%Q) by (apply Qle_shift_div_r; auto; unfold w in *; lra).
  set (t := (d / w)%Q) in *. rewrite V.
  assert (A : (0 <= t * (py q - lo))%Q) by (apply Qmult_le_0_compat; lra).
  assert (B1 : (0 <= (1 - t) * (py p - lo))%Q) by (apply Qmult_le_0_compat; lra).
  assert (C : (0 <= t * (hi - py q))%Q) by (apply Qmult_le_0_compat; lra).
  assert (E : (0 <= (1 - t) * (hi - py p))%Q) by (apply Qmult_le_0_compat; lra).
  split; lra.
Qed.

Section E.
Variables (root : Q -> Q) (fuel : nat).

Lemma samples_call_lines size n x y c : 2 <= n <= 24 -> length y = n -> length x = n - 2 ->
  match c with Some cs => length cs = n - 1 /\ Forall (fun a => a < 1 # 100000)%Q cs | None => True end ->
  sorted (0%Q :: x ++ [inject_Z size]) -> (0 <= size < two32)%Z ->
  exists out, samples_call root fuel size n x y c = Some (mkoutcome out (Some 0%Z)) /\ follows_lines size (knots size x y) out.
Proof.
  intros. destruct (path_samples_lines root fuel size n x y c) as (out & E & L & V & C); auto.
  exists out. unfold samples_call. rewrite E. split; [reflexivity|]. split; auto.
  intros k K. destruct (C k K) as (i & p & q & Ep & Eq & B). destruct (V i p q k Ep Eq B) as (v & Ev & Hv). exists v. split; auto. exists i, p, q. auto.
Qed.

Lemma times_call_lines size n x y c : 2 <= n <= 24 -> length y = n -> length x = n - 2 ->
  match c with Some cs => length cs = n - 1 /\ Forall (fun a => a < 1 # 100000)%Q cs | None => True end ->
  sorted (0%Q :: x ++ [inject_Z size]) -> (0 <= size < two32)%Z -> Forall (fun v => 0 <= v <= inject_Z (two32 - 1))%Q y ->
  exists out, times_call root fuel size n x y c = Some (mkoutcome out (Some 0%Z)) /\ rounds_lines size (knots size x y) out.
Proof.
  intros Hn Hy Hx Hc Hs Hz HY. destruct (samples_call_lines size n x y c) as (out & E & L & F); auto.
  unfold times_call. rewrite E. cbn [bind written].
  assert (R : forall k v, line_value (knots size x y) k v -> (0 <= v <= inject_Z (two32 - 1))%Q).
  { intros k v. apply line_value_between. intros [a b] I. apply in_combine_r in I. rewrite Forall_forall in HY. apply HY. exact I. }
  destruct (to_times_correct out (Z.to_nat size) (repeat 0%Z (Z.to_nat size))) as (out' & E' & L' & _ & T).
  - lia.
  - rewrite repeat_length. lia.
  - apply Forall_forall. intros v I. apply In_nth_error in I as [k Ek]. assert (K : k < Z.to_nat size) by (rewrite <- L; apply nth_error_Some; congruence).
    destruct (F k K) as (v' & Ev & Hv). rewrite Ek in Ev. injection Ev as <-. apply R in Hv. change (inject_Z two32) with (inject_Z (two32 - 1 + 1)). rewrite inject_Z_plus. change (inject_Z 1) with 1%Q. lra.
  - exists out'. rewrite E'. split; [reflexivity|]. rewrite repeat_length in L'. split; auto.
    intros k K. destruct (F k K) as (v & Ev & Hv). 
    destruct (T k v K Ev) as (z & Ez & Hz'). exists z, v. split; [auto|]. split; [auto|].
    unfold rounded in Hz'. apply Qabs_Qle_condition. lra.
Qed.

Lemma parts_le x l : proper_parts (x :: l) -> (0 <= x)%Q /\ Forall (fun a => 0 <= a)%Q l /\ (x + fold_right Qplus 0 l <= 1)%Q.
Proof. intros [F S]. apply Forall_cons_iff in F as [H F]. auto. Qed.
Lemma part_pos x size : (0 <= x)%Q -> (0 <= size)%Z -> (0 <= x * inject_Z size)%Q.
Proof. intros. apply Qmult_le_0_compat; auto. change 0%Q with (inject_Z 0). now rewrite <- Zle_Qle. Qed.
Lemma part_whole x size : (x <= 1)%Q -> (0 <= size)%Z -> (x * inject_Z size <= inject_Z size)%Q.
Proof.
  intros. apply Qle_trans with (1 * inject_Z size)%Q; [|lra]. apply Qmult_le_compat_r; auto. change 0%Q with (inject_Z 0). now rewrite <- Zle_Qle.
Qed.
Lemma no_return_some {A} (r : outcome A) : no_return (Some r) = Some (mkoutcome (written r) None). Proof. reflexivity. Qed.

Definition small_curves (n : nat) (c : option (list Q)) := match c with Some cs => length cs = n - 1 /\ Forall (fun a => a < 1 # 100000)%Q cs | None => True end.
Lemma sorted3 size x1 : (0 <= size)%Z -> proper_parts [x1] -> sorted (0%Q :: [x1 * inject_Z size]%Q ++ [inject_Z size]).
Proof.
  intros S P. apply parts_le in P as (A & _ & B). cbn in B. pose proof (part_pos _ _ A S). pose proof (part_whole x1 size ltac:(lra) S). cbn. splits; auto.
Qed.
Lemma sorted4 size x1 x2 : (0 <= size)%Z -> proper_parts [x1; x2] -> sorted (0%Q :: [x1 * inject_Z size; x1 * inject_Z size + x2 * inject_Z size]%Q ++ [inject_Z size]).
Proof.
  intros S P. apply parts_le in P as (A & F & B). apply Forall_cons_iff in F as [A2 _]. cbn in B.
  pose proof (part_pos _ _ A S). pose proof (part_pos _ _ A2 S). pose proof (part_whole (x1 + x2) size ltac:(lra) S). cbn [sorted app]. splits; auto; lra.
Qed.
Lemma sorted5 size x1 x2 x3 : (0 <= size)%Z -> proper_parts [x1; x2; x3] ->
  sorted (0%Q :: [x1 * inject_Z size; x1 * inject_Z size + x2 * inject_Z size; x1 * inject_Z size + x2 * inject_Z size + x3 * inject_Z size]%Q ++ [inject_Z size]).
Proof.
  intros S P. apply parts_le in P as (A & F & B). apply Forall_cons_iff in F as [A2 F]. apply Forall_cons_iff in F as [A3 _]. cbn in B.
  pose proof (part_pos _ _ A S). pose proof (part_pos _ _ A2 S). pose proof (part_pos _ _ A3 S). pose proof (part_whole (x1 + x2 + x3) size ltac:(lra) S). cbn [sorted app]. splits; auto; lra.
Qed.
Ltac points := repeat constructor; cbn [px py fst snd]; try ring; try reflexivity.
Lemma points3 size x1 y0 y1 y2 z0 z1 z2 : (y0 == z0)%Q -> (y1 == z1)%Q -> (y2 == z2)%Q ->
  same_points (knots size [x1 * inject_Z size]%Q [y0; y1; y2]) (envelope_points size [x1] [z0; z1; z2]).
Proof. intros. unfold same_points, knots, envelope_points. cbn [summed map app combine]. repeat (constructor; [split; cbn [px py fst snd]; try assumption; ring|]). constructor. Qed.
Lemma points4 size x1 x2 y0 y1 y2 y3 z0 z1 z2 z3 : (y0 == z0)%Q -> (y1 == z1)%Q -> (y2 == z2)%Q -> (y3 == z3)%Q ->
  same_points (knots size [x1 * inject_Z size; x1 * inject_Z size + x2 * inject_Z size]%Q [y0; y1; y2; y3]) (envelope_points size [x1; x2] [z0; z1; z2; z3]).
Proof. intros. unfold same_points, knots, envelope_points. cbn [summed map app combine]. repeat (constructor; [split; cbn [px py fst snd]; try assumption; ring|]). constructor. Qed.
Lemma points5 size x1 x2 x3 y0 y1 y2 y3 y4 z0 z1 z2 z3 z4 : (y0 == z0)%Q -> (y1 == z1)%Q -> (y2 == z2)%Q -> (y3 == z3)%Q -> (y4 == z4)%Q ->
  same_points (knots size [x1 * inject_Z size; x1 * inject_Z size + x2 * inject_Z size; x1 * inject_Z size + x2 * inject_Z size + x3 * inject_Z size]%Q [y0; y1; y2; y3; y4])
    (envelope_points size [x1; x2; x3] [z0; z1; z2; z3; z4]).
Proof. intros. unfold same_points, knots, envelope_points. cbn [summed map app combine]. repeat (constructor; [split; cbn [px py fst snd]; try assumption; ring|]). constructor. Qed.

Ltac zero_env SL PT :=
  let out := fresh "out" in let E := fresh "E" in let F := fresh "F" in
  match goal with |- context [samples_call _ _ ?size ?n ?x ?y ?c] =>
    destruct (samples_call_lines size n x y c) as (out & E & F); [lia|reflexivity|reflexivity|auto|apply SL; auto; lia|auto|];
    rewrite E; rewrite no_return_some; eexists; split; [reflexivity|]; split; [cbn [written]; eapply follows_same; [|exact F]; apply PT; reflexivity|reflexivity] end.
Ltac scaled_env SL PT :=
  let out := fresh "out" in let E := fresh "E" in let F := fresh "F" in
  match goal with |- context [times_call _ _ ?size ?n ?x ?y ?c] =>
    destruct (times_call_lines size n x y c) as (out & E & F); [lia|reflexivity|reflexivity|auto|apply SL; auto; lia|auto| |];
    [|rewrite E; rewrite no_return_some; eexists; split; [reflexivity|]; split; [cbn [written]; eapply rounds_same; [|exact F]; apply PT; ring|reflexivity]] end.

Lemma zero3_ok size x1 y1 : (0 <= size < two32)%Z -> proper_parts [x1] ->
  exists r, envelope_zero3 root fuel size x1 y1 = Some r /\ follows_lines size (envelope_points size [x1] [0; y1; 0]%Q) (written r) /\ status r = None.
Proof. intros S P. unfold envelope_zero3, path3. zero_env sorted3 points3. Qed.
Lemma zero4_ok size x1 x2 y1 y2 : (0 <= size < two32)%Z -> proper_parts [x1; x2] ->
  exists r, envelope_zero4 root fuel size x1 x2 y1 y2 = Some r /\ follows_lines size (envelope_points size [x1; x2] [0; y1; y2; 0]%Q) (written r) /\ status r = None.
Proof. intros S P. unfold envelope_zero4, path4. zero_env sorted4 points4. Qed.
Lemma zero5_ok size x1 x2 x3 y1 y2 y3 : (0 <= size < two32)%Z -> proper_parts [x1; x2; x3] ->
  exists r, envelope_zero5 root fuel size x1 x2 x3 y1 y2 y3 = Some r /\ follows_lines size (envelope_points size [x1; x2; x3] [0; y1; y2; y3; 0]%Q) (written r) /\ status r = None.
Proof. intros S P. unfold envelope_zero5, path5. cbv zeta. zero_env sorted5 points5. Qed.
Lemma zero_c3_ok size x1 y1 c1 c2 : (0 <= size < two32)%Z -> proper_parts [x1] -> Forall (fun a => a < 1 # 100000)%Q [c1; c2] ->
  exists r, envelope_zero_c3 root fuel size x1 y1 c1 c2 = Some r /\ follows_lines size (envelope_points size [x1] [0; y1; 0]%Q) (written r) /\ status r = None.
Proof. intros S P C. unfold envelope_zero_c3, path_c3. zero_env sorted3 points3. Qed.
Lemma zero_c4_ok size x1 x2 y1 y2 c1 c2 c3 : (0 <= size < two32)%Z -> proper_parts [x1; x2] -> Forall (fun a => a < 1 # 100000)%Q [c1; c2; c3] ->
  exists r, envelope_zero_c4 root fuel size x1 x2 y1 y2 c1 c2 c3 = Some r /\ follows_lines size (envelope_points size [x1; x2] [0; y1; y2; 0]%Q) (written r) /\ status r = None.
Proof. intros S P C. unfold envelope_zero_c4, path_c4. zero_env sorted4 points4. Qed.
Lemma zero_c5_ok size x1 x2 x3 y1 y2 y3 c1 c2 c3 c4 : (0 <= size < two32)%Z -> proper_parts [x1; x2; x3] -> Forall (fun a => a < 1 # 100000)%Q [c1; c2; c3; c4] ->
  exists r, envelope_zero_c5 root fuel size x1 x2 x3 y1 y2 y3 c1 c2 c3 c4 = Some r /\ follows_lines size (envelope_points size [x1; x2; x3] [0; y1; y2; y3; 0]%Q) (written r) /\ status r = None.
Proof. intros S P C. unfold envelope_zero_c5, path_c5. cbv zeta. zero_env sorted5 points5. Qed.

Definition in_times (s : Q) (ys : list Q) := Forall (fun y => 0 <= s * y <= inject_Z (two32 - 1))%Q ys.
Lemma scaled3_ok size s x1 y1 y2 y3 : (0 <= size < two32)%Z -> proper_parts [x1] -> in_times s [y1; y2; y3] ->
  exists r, envelope_scaled3 root fuel size s x1 y1 y2 y3 = Some r /\ rounds_lines size (envelope_points size [x1] (map (Qmult s) [y1; y2; y3])) (written r) /\ status r = None.
Proof.
  intros S P T. unfold envelope_scaled3, path3. cbn [map]. scaled_env sorted3 points3.
  unfold in_times in T. repeat (apply Forall_cons_iff in T as [? T]). repeat constructor; rewrite (Qmult_comm _ s); tauto.
Qed.
Lemma scaled4_ok size s x1 x2 y1 y2 y3 y4 : (0 <= size < two32)%Z -> proper_parts [x1; x2] -> in_times s [y1; y2; y3; y4] ->
  exists r, envelope_scaled4 root fuel size s x1 x2 y1 y2 y3 y4 = Some r /\ rounds_lines size (envelope_points size [x1; x2] (map (Qmult s) [y1; y2; y3; y4])) (written r) /\ status r = None.
Proof.
  intros S P T. unfold envelope_scaled4, path4. cbn [map]. scaled_env sorted4 points4.
  unfold in_times in T. repeat (apply Forall_cons_iff in T as [? T]). repeat constructor; tauto.
Qed.
Lemma scaled5_ok size s x1 x2 x3 y1 y2 y3 y4 y5 : (0 <= size < two32)%Z -> proper_parts [x1; x2; x3] -> in_times s [y1; y2; y3; y4; y5] ->
  exists r, envelope_scaled5 root fuel size s x1 x2 x3 y1 y2 y3 y4 y5 = Some r /\ rounds_lines size (envelope_points size [x1; x2; x3] (map (Qmult s) [y1; y2; y3; y4; y5])) (written r) /\ status r = None.
Proof.
  intros S P T. unfold envelope_scaled5, path5. cbn [map]. cbv zeta. scaled_env sorted5 points5.
  unfold in_times in T. repeat (apply Forall_cons_iff in T as [? T]). repeat constructor; tauto.
Qed.

(** ** the general functions *)
Lemma initialised_none l k : nth_error l k = Some None -> initialised l = None.
Proof.
  revert k. induction l as [|a l IH]; intros [|k] E; cbn in E; try discriminate.
  - injection E as ->. reflexivity.
  - cbn. destruct a; [|reflexivity]. cbn. now rewrite (IH k E).
Qed.
Lemma envelope_loop_gap f size n x y path_y x' path_y' : nth_error path_y 1 = Some None -> envelope_loop f size n x y path_y = Some (x', path_y') -> nth_error path_y' 1 = Some None.
Proof.
  intros H E. unfold envelope_loop in E. destruct (Nat.le_gt_cases (n - 1) 2) as [L|L].
  { rewrite for_empty in E by lia. now injection E as _ <-. }
  refine (for_inv_partial (fun _ '(_, p) => nth_error p 1 = Some None) _ 2 (n - 1) (x, path_y) (x', path_y') _ _ _ E); [lia|exact H|].
  intros i [x0 p0] [x1 p1] Hi HP ES. repeat (apply bind_some in ES as (? & ? & ES)). injection ES as _ <-.
  match goal with A : aset p0 i _ = Some _ |- _ => pose proof (aset_get _ _ _ _ 1 A) as G end. rewrite G. destruct (Nat.eqb_spec 1 i); [lia|exact HP].
Qed.
Lemma envelope_zero_none size n x y c : 3 <= n -> envelope_zero root fuel size n x y c = None.
Proof.
  intro Hn. unfold envelope_zero. destruct (aget x 1) as [a|]; [|reflexivity]. cbn [bind]. destruct (aset x 1 _) as [x1|]; [|reflexivity]. cbn [bind].
  destruct (aset (repeat None 24) 0 _) as [p0|] eqn:E0; [|reflexivity]. cbn [bind]. destruct (aset p0 (n - 1) _) as [p1|] eqn:E1; [|reflexivity]. cbn [bind].
  destruct (envelope_loop _ size n x1 y p1) as [[x2 p2]|] eqn:E2; [|reflexivity]. cbn [bind].
  assert (G : nth_error p2 1 = Some None).
  { refine (envelope_loop_gap _ _ _ _ _ _ _ _ _ E2). rewrite (aset_get _ _ _ _ 1 E1). destruct (Nat.eqb_spec 1 (n - 1)); [lia|].
    rewrite (aset_get _ _ _ _ 1 E0). reflexivity. }
  rewrite (initialised_none (firstn n p2) 1); [reflexivity|]. rewrite nth_error_firstn by lia. exact G.
Qed.
Lemma envelope_scaled_none size n s x y c : 3 <= n -> envelope_scaled root fuel size n s x y c = None.
Proof.
  intro Hn. unfold envelope_scaled. destruct (aget x 1) as [a|]; [|reflexivity]. cbn [bind]. destruct (aset x 1 _) as [x1|]; [|reflexivity]. cbn [bind].
  destruct (aget y 0) as [y0|]; [|reflexivity]. cbn [bind].
  destruct (aset (repeat None 24) 0 _) as [p0|] eqn:E0; [|reflexivity]. cbn [bind].
  destruct (aget y (n - 1)) as [yn|]; [|reflexivity]. cbn [bind]. destruct (aset p0 (n - 1) _) as [p1|] eqn:E1; [|reflexivity]. cbn [bind].
  destruct (envelope_loop _ size n x1 y p1) as [[x2 p2]|] eqn:E2; [|reflexivity]. cbn [bind].
  assert (G : nth_error p2 1 = Some None).
  { refine (envelope_loop_gap _ _ _ _ _ _ _ _ _ E2). rewrite (aset_get _ _ _ _ 1 E1). destruct (Nat.eqb_spec 1 (n - 1)); [lia|].
    rewrite (aset_get _ _ _ _ 1 E0). reflexivity. }
  rewrite (initialised_none (firstn n p2) 1); [reflexivity|]. rewrite nth_error_firstn by lia. exact G.
Qed.
End E.

Lemma envelope_loop_positions f size n x y path_y : n - 1 <= length x -> n - 1 <= length y -> n - 1 <= length path_y ->
  exists x' path_y', envelope_loop f size n x y path_y = Some (x', path_y') /\ length x' = length x /\ length path_y' = length path_y /\
    forall i, (2 <= i < n - 1 -> exists v, nth_error x' i = Some v /\ (v == nth 1 x 0 + sum_from_2 x i * inject_Z size)%Q /\ nth_error path_y' i = Some (Some (f (nth i y 0%Q)))) /\
      (~ 2 <= i < n - 1 -> nth_error x' i = nth_error x i /\ nth_error path_y' i = nth_error path_y i).
Proof.
  intros hx hy hp. unfold envelope_loop. destruct (Nat.le_gt_cases (n - 1) 2) as [hn|hn].
  - rewrite for_empty by exact hn. exists x, path_y. splits; auto. intros i. split; [lia|auto].
  - destruct (for_inv (fun k '(x', p) => length x' = length x /\ length p = length path_y /\
      forall i, (2 <= i < k -> exists v, nth_error x' i = Some v /\ (v == nth 1 x 0 + sum_from_2 x i * inject_Z size)%Q /\ nth_error p i = Some (Some (f (nth i y 0%Q)))) /\
        (~ 2 <= i < k -> nth_error x' i = nth_error x i /\ nth_error p i = nth_error path_y i))
      (fun i '(x, path_y) => a <- aget x (i - 1) ;; b <- aget x i ;; x <- aset x i (a + b * inject_Z size)%Q ;;
        v <- aget y i ;; path_y <- aset path_y i (Some (f v)) ;; Some (x, path_y)) 2 (n - 1) (x, path_y)) as ([x' p'] & e & h1 & h2 & h3).
    + lia.
    + splits; auto. intros i. split; [lia|auto].
    + intros i [x' p] hi (h1 & h2 & h3).
      assert (ha : exists a, nth_error x' (i - 1) = Some a /\ (a == nth 1 x 0 + sum_from_2 x (i - 1) * inject_Z size)%Q).
      { destruct (Nat.eq_dec i 2) as [->|hi2].
        - destruct (proj2 (h3 1) ltac:(lia)) as [e _]. cbn [Nat.sub]. rewrite e. exists (nth 1 x 0%Q). split; [apply nth_error_nth'; lia|]. cbn [sum_from_2]. ring.
        - destruct (proj1 (h3 (i - 1)) ltac:(lia)) as (v & e1 & e2 & _). exists v. split; assumption. }
      destruct ha as (a & ea & ev). unfold aget at 1. rewrite ea. cbn [bind]. unfold aget at 1. rewrite (proj1 (proj2 (h3 i) ltac:(lia))). rewrite (nth_error_nth' x 0%Q) by lia. cbn [bind].
      destruct (aset_some x' i (a + nth i x 0 * inject_Z size)%Q ltac:(lia)) as (x2 & ex). rewrite ex. cbn [bind]. unfold aget at 1. rewrite (nth_error_nth' y 0%Q) by lia. cbn [bind].
      destruct (aset_some p i (Some (f (nth i y 0%Q))) ltac:(lia)) as (p2 & ep). rewrite ep. cbn [bind]. exists (x2, p2). split; [reflexivity|].
      rewrite (aset_length _ _ _ _ ex), (aset_length _ _ _ _ ep). splits; auto. intros j. rewrite (aset_get _ _ _ _ j ex), (aset_get _ _ _ _ j ep).
      destruct (Nat.eq_dec j i) as [->|hj].
      * rewrite Nat.eqb_refl. split; [|lia]. intros _. eexists. split; [reflexivity|]. split; [|reflexivity]. rewrite ev.
        destruct i as [|[|i]]; [lia|lia|]. replace (S (S i) - 1) with (S i) by lia. change (sum_from_2 x (S (S i))) with (sum_from_2 x (S i) + nth (S (S i)) x 0)%Q. ring.
      * replace (j =? i) with false by (symmetry; apply Nat.eqb_neq; lia). destruct (h3 j) as [h4 h5]. split; intros; [apply h4|apply h5]; lia.
    + exists x', p'. splits; auto.
Qed.
