(** Proofs about convolution in double precision *)
From Coq Require Import ZArith Reals List Lia Lra.
From Flocq Require Import Core BinarySingleNaN.
From Verif Require Import Base DblModel DblSpec DblProofs Dbl2Proofs DlineProofs ConvolveModel ConvolveSpec ConvolveProofs ConvolveFinal DconvSpec.
Import ListNotations.
Open Scope R_scope.

Definition rsum (l : list R) : R := fold_right Rplus 0 l.
Lemma fold_left_rsum l : forall acc, fold_left Rplus l acc = acc + rsum l.
Proof. induction l as [|x l IH]; intros acc; cbn [fold_left rsum fold_right]; [lra|]. rewrite IH. unfold rsum. lra. Qed.
Lemma rsum_abs l : Rabs (rsum l) <= rsum (map Rabs l).
Proof. induction l as [|x l IH]; cbn [rsum fold_right map]; [rewrite Rabs_R0; lra|]. eapply Rle_trans; [apply Rabs_triang|]. unfold rsum in *. lra. Qed.
Lemma rsum_pos l : 0 <= rsum (map Rabs l).
Proof. induction l as [|x l IH]; cbn [rsum fold_right map]; [lra|]. pose proof (Rabs_pos x). unfold rsum in *. lra. Qed.

(** a sum from the left *)
Lemma fold_sum l : forall acc k e A, finite acc -> Forall finite l -> 0 <= A -> A + rsum (map (fun x => Rabs (real x)) l) <= B 1000 -> (INR (k + length l)) * u <= / 2 ->
  Rabs e <= A -> Rabs (real acc - e) <= 2 * INR k * u * A ->
  finite (fold_left fadd l acc) /\ Rabs (real (fold_left fadd l acc) - (e + rsum (map real l))) <= 2 * INR (k + length l) * u * (A + rsum (map (fun x => Rabs (real x)) l)).
Proof.
  induction l as [|x l IH]; intros acc k e A fa fl hA hb hn he hd; cbn [fold_left rsum fold_right map length] in *.
  - rewrite Nat.add_0_r, Rplus_0_r, Rplus_0_r. auto.
  - apply Forall_cons_iff in fl as [fx fl]. fold (rsum (map real l)) in *. fold (rsum (map (fun x => Rabs (real x)) l)) in *.
    pose proof (Rabs_pos (real x)) as px. pose proof u_pos as up. pose proof (pos_INR k) as pk. assert (r0 : 0 <= rsum (map (fun x => Rabs (real x)) l)) by (rewrite <- map_map; apply rsum_pos).
    assert (ku : INR k * u <= / 2). { eapply Rle_trans; [|exact hn]. apply Rmult_le_compat_r; [lra|]. apply le_INR. lia. }
    assert (ba : Rabs (real acc) <= 2 * A). { replace (real acc) with ((real acc - e) + e) by ring. eapply Rle_trans; [apply Rabs_triang|]. nra. }
    assert (bs : Rabs (real acc + real x) <= B 1022). { eapply Rle_trans; [apply Rabs_triang|]. pose proof big_1000. pose proof (bpow_gt_0 radix2 1000). lra. }
    destruct (fadd_ok acc x fa fx bs) as (f1 & _ & d & hd1 & r1).
    assert (A0 : 0 <= A * u) by nra.
    destruct (IH (fadd acc x) (S k) (e + real x) (A + Rabs (real x)) f1 fl) as [f2 h2].
    + lra.
    + lra.
    + replace (S k + length l)%nat with (k + S (length l))%nat by lia. exact hn.
    + eapply Rle_trans; [apply Rabs_triang|]. lra.
    + rewrite r1, S_INR. replace ((real acc + real x) * (1 + d) - (e + real x)) with ((real acc - e) + (real acc + real x) * d) by ring.
      eapply Rle_trans; [apply Rabs_triang|]. rewrite Rabs_mult.
      assert (s1 : Rabs (real acc + real x) <= A + Rabs (real x) + 2 * INR k * u * A). { replace (real acc + real x) with ((e + real x) + (real acc - e)) by ring. eapply Rle_trans; [apply Rabs_triang|]. pose proof (Rabs_triang e (real x)). lra. }
      assert (s2 : Rabs (real acc + real x) * Rabs d <= (A + Rabs (real x) + 2 * INR k * u * A) * u) by (apply Rmult_le_compat; auto using Rabs_pos).
      assert (s3 : 2 * INR k * u * A * u <= A * u). { replace (2 * INR k * u * A * u) with (2 * (INR k * u) * (A * u)) by ring. nra. }
      assert (s4 : 0 <= INR k * u * Rabs (real x)) by (apply Rmult_le_pos; [apply Rmult_le_pos|]; lra). assert (0 <= u * Rabs (real x)) by nra. nra.
    + split; [exact f2|]. replace (k + S (length l))%nat with (S k + length l)%nat by lia. replace (e + (real x + rsum (map real l))) with (e + real x + rsum (map real l)) by ring.
      replace (A + (Rabs (real x) + rsum (map (fun x => Rabs (real x)) l))) with (A + Rabs (real x) + rsum (map (fun x => Rabs (real x)) l)) by ring. exact h2.
Qed.

(** ** Terms *)
Notation term64 := (conv_term f64 fmul).
Notation termR := (conv_term R Rmult).
(** the terms of a sample: pairs of factors *)
Definition pairs (a b : list f64) (k i : nat) : list (f64 * f64) := match nth_error a i, nth_error b (k - i) with Some x, Some y => [(x, y)] | _, _ => [] end.
Definition all_pairs a b k := flat_map (pairs a b k) (seq 0 (S k)).
Lemma terms_64 a b k : flat_map (term64 a b k) (seq 0 (S k)) = map (fun p => fmul (fst p) (snd p)) (all_pairs a b k).
Proof. unfold all_pairs. induction (seq 0 (S k)) as [|i l IH]; [reflexivity|]. cbn [flat_map]. rewrite map_app, IH. f_equal. unfold conv_term, pairs. destruct (nth_error a i), (nth_error b (k - i)); reflexivity. Qed.
Lemma terms_R g a b k : flat_map (termR (map g a) (map g b) k) (seq 0 (S k)) = map (fun p => g (fst p) * g (snd p)) (all_pairs a b k).
Proof. unfold all_pairs. induction (seq 0 (S k)) as [|i l IH]; [reflexivity|]. cbn [flat_map]. rewrite map_app, IH. f_equal. unfold conv_term, pairs. rewrite !nth_error_map. destruct (nth_error a i), (nth_error b (k - i)); reflexivity. Qed.
Lemma pairs_one a b k i : (length (pairs a b k i) <= 1)%nat.
Proof. unfold pairs. destruct (nth_error a i), (nth_error b (k - i)); cbn; lia. Qed.
Lemma pairs_few a b k : (length (all_pairs a b k) <= Nat.min (length a) (length b))%nat.
Proof.
  unfold all_pairs. apply Nat.min_glb.
  - enough (G : forall m s, (length (flat_map (pairs a b k) (seq s m)) <= length a - s)%nat) by (specialize (G (S k) 0%nat); lia).
    induction m as [|m IH]; intros s; cbn [seq flat_map]; [cbn; lia|]. rewrite app_length. specialize (IH (S s)). destruct (Nat.le_gt_cases (length a) s) as [h|h].
    + unfold pairs at 1. rewrite (proj2 (nth_error_None a s) h). cbn [length]. lia.
    + pose proof (pairs_one a b k s). lia.
  - enough (G : forall m s, (s + m = S k)%nat -> (length (flat_map (pairs a b k) (seq s m)) <= Nat.min m (length b))%nat) by (specialize (G (S k) 0%nat eq_refl); lia).
    induction m as [|m IH]; intros s hs; cbn [seq flat_map]; [cbn; lia|]. rewrite app_length. specialize (IH (S s) ltac:(lia)). destruct (Nat.le_gt_cases (length b) (k - s)) as [h|h].
    + unfold pairs at 1. rewrite (proj2 (nth_error_None b (k - s)) h). destruct (nth_error a s); cbn [length]; lia.
    + pose proof (pairs_one a b k s). lia.
Qed.
Lemma pairs_finite a b k : Forall finite a -> Forall finite b -> Forall (fun p => finite (fst p) /\ finite (snd p)) (all_pairs a b k).
Proof.
  intros ha hb. apply Forall_forall. intros [x y] h. unfold all_pairs in h. apply in_flat_map in h as (i & _ & h). unfold pairs in h.
  destruct (nth_error a i) as [x'|] eqn:e1; [|destruct h]. destruct (nth_error b (k - i)) as [y'|] eqn:e2; [|destruct h]. destruct h as [h|[]]. injection h as <- <-.
  rewrite Forall_forall in ha, hb. split; [apply ha|apply hb]; eapply nth_error_In; eassumption.
Qed.
Definition tiny : R := / IZR (2 ^ 1022).
Lemma tiny_pos : 0 < tiny. Proof. unfold tiny. apply Rinv_0_lt_compat. apply IZR_lt. apply Z.pow_pos_nonneg; lia. Qed.
(** the products *)
Lemma products_ok (l : list (f64 * f64)) : Forall (fun p => finite (fst p) /\ finite (snd p)) l -> rsum (map (fun p => Rabs (real (fst p)) * Rabs (real (snd p))) l) <= B 999 ->
  Forall finite (map (fun p => fmul (fst p) (snd p)) l) /\
  Rabs (rsum (map real (map (fun p => fmul (fst p) (snd p)) l)) - rsum (map (fun p => real (fst p) * real (snd p)) l)) <= u * rsum (map (fun p => Rabs (real (fst p)) * Rabs (real (snd p))) l) + INR (length l) * tiny /\
  rsum (map (fun x => Rabs (real x)) (map (fun p => fmul (fst p) (snd p)) l)) <= (1 + u) * rsum (map (fun p => Rabs (real (fst p)) * Rabs (real (snd p))) l) + INR (length l) * tiny.
Proof.
  pose proof tiny_pos as tp. unfold rsum. induction 1 as [|[x y] l [fx fy] hl IH]; cbn [map fold_right fst snd length].
  - intros _. split; [constructor|]. cbn [INR]. rewrite Rminus_0_r, Rabs_R0. lra.
  - set (T := fold_right Rplus 0 (map (fun p => Rabs (real (fst p)) * Rabs (real (snd p))) l)) in *. intros hS.
    assert (T0 : 0 <= T). { unfold T. clear. induction l as [|p l IH]; cbn; [lra|]. pose proof (Rmult_le_pos _ _ (Rabs_pos (real (fst p))) (Rabs_pos (real (snd p)))). lra. }
    assert (q0 : 0 <= Rabs (real x) * Rabs (real y)) by (apply Rmult_le_pos; apply Rabs_pos).
    destruct IH as (h1 & h2 & h3); [lra|].
    assert (b : Rabs (real x * real y) <= B 1022). { rewrite Rabs_mult. apply Rle_trans with (B 999); [lra|apply bpow_le; lia]. }
    destruct (fmul_fin x y fx fy b) as [fm rm]. pose proof (rnd_any (real x * real y)) as ra. rewrite Rabs_mult, tiny_real in ra. fold tiny in ra.
    split; [constructor; [exact fm|exact h1]|]. rewrite rm, S_INR. pose proof u_pos. split.
    + match goal with |- Rabs ((?p + ?s) - (?q + ?t)) <= _ => replace ((p + s) - (q + t)) with ((p - q) + (s - t)) by ring end. eapply Rle_trans; [apply Rabs_triang|]. nra.
    + assert (Rabs (rnd (real x * real y)) <= (1 + u) * (Rabs (real x) * Rabs (real y)) + tiny).
      { replace (rnd (real x * real y)) with (real x * real y + (rnd (real x * real y) - real x * real y)) by ring. eapply Rle_trans; [apply Rabs_triang|]. rewrite Rabs_mult. lra. }
      nra.
Qed.
Lemma sample_ok a b k : Forall finite a -> Forall finite b -> INR (Nat.min (length a) (length b)) <= IZR (2 ^ 50) -> magnitude a b k <= IZR (2 ^ 998) ->
  approximates a b k (conv_sample f64 fadd fmul fzero a b k).
Proof.
  intros fa fb hn hm. unfold approximates, conv_sample. rewrite terms_64. unfold exact_sample, magnitude, conv_sample in *. rewrite terms_R, fold_left_rsum, Rplus_0_l in *.
  set (l := all_pairs a b k) in *. pose proof (pairs_few a b k) as hl. fold l in hl. set (n := Nat.min (length a) (length b)) in *.
  set (S := rsum (map (fun p => Rabs (real (fst p)) * Rabs (real (snd p))) l)) in *.
  assert (b998 : IZR (2 ^ 998) = B 998) by reflexivity. rewrite b998 in hm.
  assert (b999 : B 999 = 2 * B 998) by (change 999%Z with (1 + 998)%Z; rewrite bpow_plus; reflexivity). assert (b1000 : B 1000 = 4 * B 998) by (change 1000%Z with (2 + 998)%Z; rewrite bpow_plus; reflexivity). pose proof (bpow_gt_0 radix2 998) as p998.
  destruct (products_ok l (pairs_finite a b k fa fb)) as (h1 & h2 & h3); [fold S; lra|]. fold S in h2, h3.
  assert (hln : INR (length l) <= INR n) by (apply le_INR; exact hl). pose proof (pos_INR (length l)) as l0. pose proof tiny_pos as tp. pose proof u_pos as up. pose proof u_half as uh.
  assert (nu : INR n * u <= / 8). { apply Rle_trans with (IZR (2 ^ 50) * u); [apply Rmult_le_compat_r; lra|]. rewrite u_val, (IZR_pow2 50), <- bpow_plus by lia. change (B (50 + -53)) with (/ 8). lra. }
  assert (S0 : 0 <= S). { unfold S. clear. induction l as [|p l IH]; cbn; [lra|]. pose proof (Rmult_le_pos _ _ (Rabs_pos (real (fst p))) (Rabs_pos (real (snd p)))). unfold rsum in IH. lra. }
  assert (nt : INR n * tiny <= B 998). { apply Rle_trans with (B 50 * 1); [|rewrite Rmult_1_r; apply bpow_le; lia]. apply Rmult_le_compat; [apply pos_INR|lra|rewrite <- IZR_pow2 by lia; exact hn|]. unfold tiny. rewrite <- tiny_real. change 1 with (B 0). apply bpow_le. lia. }
  set (P := rsum (map (fun x => Rabs (real x)) (map (fun p => fmul (fst p) (snd p)) l))) in *.
  assert (lt : INR (length l) * tiny <= INR n * tiny) by (apply Rmult_le_compat_r; lra).
  assert (P0 : 0 <= P) by (unfold P; rewrite <- (map_map real Rabs); apply rsum_pos).
  destruct (fold_sum (map (fun p => fmul (fst p) (snd p)) l) fzero 0 0 0) as [f g].
  - reflexivity.
  - exact h1.
  - lra.
  - fold P. nra.
  - rewrite map_length. cbn [Nat.add]. nra.
  - rewrite Rabs_R0. lra.
  - change (real fzero) with 0. rewrite Rminus_0_r, Rabs_R0. cbn [INR]. lra.
  - split; [exact f|]. rewrite map_length in g. cbn [Nat.add] in g. rewrite !Rplus_0_l in g. fold P in g.
    unfold error_bound. cbv zeta. fold n. unfold magnitude, conv_sample. rewrite terms_R, fold_left_rsum, Rplus_0_l. fold l. fold S. fold tiny.
    match type of g with Rabs (?v - ?s) <= _ => match type of h2 with Rabs (_ - ?t) <= _ => replace (v - t) with ((v - s) + (s - t)) by ring end end.
    eapply Rle_trans; [apply Rabs_triang|].
    assert (g1 : 2 * INR (length l) * u * P <= 2 * INR n * u * ((1 + u) * S + INR n * tiny)). { apply Rmult_le_compat; try nra. }
    assert (x1 : 0 <= INR n) by apply pos_INR. assert (x2 : INR n * u * (u * S) <= / 8 * (u * S)) by (apply Rmult_le_compat_r; nra). assert (x3 : INR n * u * (INR n * tiny) <= / 8 * (INR n * tiny)) by (apply Rmult_le_compat_r; [apply Rmult_le_pos; lra|exact nu]). assert (0 <= INR n * tiny) by (apply Rmult_le_pos; lra). nra.
Qed.
Lemma samples_ok a b from n : Forall finite a -> Forall finite b -> INR (Nat.min (length a) (length b)) <= IZR (2 ^ 50) -> (forall k, magnitude a b k <= IZR (2 ^ 998)) ->
  forall i, (i < n)%nat -> exists v, nth_error (conv_samples f64 fzero fadd fmul a b from n) i = Some v /\ approximates a b (from + i) v.
Proof.
  intros fa fb hn hm i hi. exists (conv_sample f64 fadd fmul fzero a b (from + i)). split; [|apply sample_ok; auto].
  unfold conv_samples. rewrite nth_error_map, (nth_error_nth' _ 0%nat) by (rewrite seq_length; exact hi). rewrite seq_nth by exact hi. reflexivity.
Qed.
Lemma stream_ok junk b segments : b <> [] -> (forall n, length (junk n) = n) -> Forall finite b -> Forall (Forall finite) segments -> INR (length b) <= IZR (2 ^ 50) ->
  (forall k, magnitude (concat segments) b k <= IZR (2 ^ 998)) ->
  exists out carry, convolve_stream f64 fzero fadd fmul junk b (repeat fzero (length b - 1)) segments = Some (out, carry) /\ length out = length (concat segments) /\
    (forall i, (i < length out)%nat -> exists v, nth_error out i = Some v /\ approximates (concat segments) b i v) /\
    (forall i, (i < length b - 1)%nat -> exists v, nth_error carry i = Some v /\ approximates (concat segments) b (length out + i) v).
Proof.
  intros hb hj fb fs hn hm. rewrite (convolve_stream_whole f64 fzero fadd fmul junk b segments hb hj).
  assert (fa : Forall finite (concat segments)). { apply Forall_forall. intros x hx. apply in_concat in hx as (l & hl & hx). rewrite Forall_forall in fs. specialize (fs l hl). rewrite Forall_forall in fs. auto. }
  assert (hn2 : INR (Nat.min (length (concat segments)) (length b)) <= IZR (2 ^ 50)). { eapply Rle_trans; [|exact hn]. apply le_INR. lia. }
  eexists _, _. split; [reflexivity|]. assert (el : length (conv_samples f64 fzero fadd fmul (concat segments) b 0 (length (concat segments))) = length (concat segments)) by (unfold conv_samples; rewrite map_length, seq_length; reflexivity).
  rewrite el. split; [reflexivity|]. split.
  - intros i hi. apply (samples_ok (concat segments) b 0); auto.
  - intros i hi. apply samples_ok; auto.
Qed.
Lemma one_ok a b n : (length a + length b - 1 <= n)%nat -> Forall finite a -> Forall finite b -> INR (Nat.min (length a) (length b)) <= IZR (2 ^ 50) -> (forall k, magnitude a b k <= IZR (2 ^ 998)) ->
  exists out, sp_convolve_one f64 fadd fmul a (length a) b (length b) (repeat fzero n) = Some out /\ length out = n /\ forall i, (i < n)%nat -> exists v, nth_error out i = Some v /\ approximates a b i v.
Proof.
  intros hl fa fb hn hm. rewrite (convolve_one_whole f64 fzero fadd fmul a b n hl). eexists. split; [reflexivity|]. split; [unfold conv_samples; rewrite map_length, seq_length; reflexivity|].
  intros i hi. apply (samples_ok a b 0); auto.
Qed.
(** a simple bound of the magnitudes *)
Lemma magnitude_simple a b M G k : Forall (fun x => Rabs (real x) <= M) a -> 0 <= M -> fold_right Rplus 0 (map (fun x => Rabs (real x)) b) <= G -> magnitude a b k <= M * G.
Proof.
  intros ha hM hG. apply Rle_trans with (M * rsum (map (fun x => Rabs (real x)) b)); [|apply Rmult_le_compat_l; [exact hM|exact hG]]. clear G hG.
  unfold magnitude, conv_sample. rewrite terms_R, fold_left_rsum, Rplus_0_l. unfold all_pairs.
  (* the terms of the indices from s on use different elements of b, the first k - s + 1 *)
  enough (G : forall m s, (s + m = S k)%nat -> rsum (map (fun p => Rabs (real (fst p)) * Rabs (real (snd p))) (flat_map (pairs a b k) (seq s m))) <= M * rsum (map (fun x => Rabs (real x)) (firstn m b))).
  { eapply Rle_trans; [apply (G (S k) 0%nat eq_refl)|]. apply Rmult_le_compat_l; [exact hM|]. rewrite <- (firstn_skipn (S k) b) at 2. rewrite map_app. unfold rsum. rewrite fold_right_app. fold (rsum (map (fun x => Rabs (real x)) (skipn (S k) b))).
    generalize (map (fun x => Rabs (real x)) (firstn (S k) b)). intros l. assert (h : 0 <= rsum (map (fun x => Rabs (real x)) (skipn (S k) b))) by (rewrite <- (map_map real Rabs); apply rsum_pos). revert h. generalize (rsum (map (fun x => Rabs (real x)) (skipn (S k) b))). intros r h. induction l as [|y l IH]; cbn; lra. }
  induction m as [|m IH]; intros s hs; cbn [seq flat_map]; [unfold rsum; cbn; lra|]. specialize (IH (S s) ltac:(lia)). rewrite map_app. unfold rsum in *. rewrite fold_right_app.
  assert (split : fold_right Rplus 0 (map (fun x => Rabs (real x)) (firstn (S m) b)) = fold_right Rplus 0 (map (fun x => Rabs (real x)) (firstn m b)) + match nth_error b m with Some y => Rabs (real y) | None => 0 end).
  { clear. revert b. induction m as [|m IH]; intros [|y b].
    - cbn. lra.
    - cbn. lra.
    - cbn. lra.
    - specialize (IH b). change (nth_error (y :: b) (S m)) with (nth_error b m). change (firstn (S (S m)) (y :: b)) with (y :: firstn (S m) b). change (firstn (S m) (y :: b)) with (y :: firstn m b). change (fold_right Rplus 0 (map (fun x => Rabs (real x)) (y :: firstn (S m) b))) with (Rabs (real y) + fold_right Rplus 0 (map (fun x => Rabs (real x)) (firstn (S m) b))). change (fold_right Rplus 0 (map (fun x => Rabs (real x)) (y :: firstn m b))) with (Rabs (real y) + fold_right Rplus 0 (map (fun x => Rabs (real x)) (firstn m b))). lra. }
  assert (pe : pairs a b k s = match nth_error a s, nth_error b m with Some x, Some y => [(x, y)] | _, _ => [] end) by (unfold pairs; replace (k - s)%nat with m by lia; reflexivity).
  rewrite split, pe.
  destruct (nth_error b m) as [y|] eqn:eb; destruct (nth_error a s) as [x|] eqn:ea; cbn [map fold_right fst snd]; try lra.
  - rewrite Forall_forall in ha. specialize (ha x (nth_error_In _ _ ea)). pose proof (Rmult_le_compat_r _ _ _ (Rabs_pos (real y)) ha). cbn [app] in *. lra.
  - pose proof (Rmult_le_pos _ _ hM (Rabs_pos (real y))). cbn [app] in *. lra.
Qed.
