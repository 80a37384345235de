(** The deviation *)
From Coq Require Import ZArith Reals List Bool Lia Lra Psatz.
From Flocq Require Import Core BinarySingleNaN.
From Verif Require Import Base DblModel DblSpec DblProofs Dbl2Proofs ArrProofs DlineProofs DfftModel DfftProofs DkerProofs Dker2Proofs DconvProofs SortModel DstatModel DstatSpec DstatProofs Dstat2Proofs.
Import ListNotations.
Open Scope R_scope.

Lemma real_sum_le (l : list f64) m : Forall (fun x => Rabs (real x) <= m) l -> Rabs (real_sum l) <= INR (length l) * m.
Proof.
  induction l as [|x l IH]; intros h; cbn [real_sum length]; [rewrite Rabs_R0; cbn; lra|]. apply Forall_cons_iff in h as [hx h]. rewrite S_INR. eapply Rle_trans; [apply Rabs_triang|]. specialize (IH h). lra.
Qed.
Lemma fold_map (F : f64 -> f64) l : forall acc, fold_left (fun s x => fadd s (F x)) l acc = fold_left fadd (map F l) acc.
Proof. induction l as [|x l IH]; intros acc; cbn [fold_left map]; [reflexivity|]. apply IH. Qed.
(** sums of terms that are near *)
Lemma terms_near (F : f64 -> f64) (g : R -> R) l e b : Forall (fun x => Rabs (real (F x) - g (real x)) <= e /\ 0 <= real (F x) <= b /\ finite (F x)) l ->
  Rabs (rsum (map real (map F l)) - sum_of g l) <= INR (length l) * e /\ 0 <= rsum (map (fun x => Rabs (real x)) (map F l)) <= INR (length l) * b.
Proof.
  induction l as [|x l IH]; intros h; cbn [map rsum fold_right sum_of length]; [rewrite Rminus_0_r, Rabs_R0; cbn; lra|]. apply Forall_cons_iff in h as [(h1 & h2 & _) h]. destruct (IH h) as [a c]. rewrite S_INR.
  fold (rsum (map real (map F l))) in *. fold (rsum (map (fun x => Rabs (real x)) (map F l))) in *. split.
  - replace (real (F x) + rsum (map real (map F l)) - (g (real x) + sum_of g l)) with ((real (F x) - g (real x)) + (rsum (map real (map F l)) - sum_of g l)) by ring. eapply Rle_trans; [apply Rabs_triang|]. lra.
  - rewrite Rabs_right by lra. lra.
Qed.
Lemma sum_of_range g l b : (forall x, In x l -> 0 <= g (real x) <= b) -> 0 <= sum_of g l <= INR (length l) * b.
Proof.
  induction l as [|x l IH]; intros h; cbn [sum_of length]; [cbn; lra|]. rewrite S_INR. assert (h1 := h x (or_introl eq_refl)). assert (h2 := IH (fun y hy => h y (or_intror hy))). lra.
Qed.
Lemma deviation_near a n m : (1 <= n <= length a)%nat -> (Z.of_nat n < 2 ^ 32)%Z -> Forall (fun x => finite x /\ Rabs (real x) <= m) (firstn n a) -> 0 <= m <= IZR (2 ^ 480) ->
  exists v, samples_deviation64 a n = Some v /\ finite v /\ 0 <= real v /\ Rabs (real v - deviation (firstn n a)) <= 10 * m * sqrt (INR n * u) + / IZR (2 ^ 262).
Proof.
  intros hn h32 hx hm. rewrite (IZR_pow2 480) in hm by lia. set (l := firstn n a) in *. assert (hl : length l = n) by (apply firstn_length_le; lia).
  assert (h1 : 1 <= INR n) by (change 1 with (INR 1); apply le_INR; lia). pose proof (small_nu n h32) as hNu. set (N := INR n) in *. pose proof u_pos as hu. pose proof u_tiny as hut.
  assert (fl : Forall finite l) by (eapply Forall_impl; [|exact hx]; intros x h; apply h). assert (ml : Forall (fun x => Rabs (real x) <= m) l) by (eapply Forall_impl; [|exact hx]; intros x h; apply h).
  assert (hA : real_abs_sum l <= N * m) by (unfold N; rewrite <- hl; apply real_abs_sum_le; exact ml).
  assert (hN32 : N <= B 32) by (unfold N; rewrite INR_IZR_INZ, <- (IZR_pow2 32) by lia; apply IZR_le; lia).
  assert (hNm : N * m <= B 512). { change 512%Z with (32 + 480)%Z. rewrite bpow_plus. apply Rmult_le_compat; lra. }
  assert (B512 : B 512 <= B 1000) by (apply bpow_le; lia).
  destruct (mean_near a n hn h32 fl) as (M & eM & fM & hM); [rewrite (IZR_pow2 1000) by lia; fold l; lra|]. fold l in hM. set (mu := mean l) in *.
  assert (hM2 : Rabs (real M - mu) <= 14 * u * (N * m) + tiny) by (assert (14 * u * real_abs_sum l <= 14 * u * (N * m)) by (apply Rmult_le_compat_l; lra); lra).
  assert (hmu : Rabs mu <= m). { unfold mu, mean. rewrite hl. fold N. unfold Rdiv. rewrite Rabs_mult, (Rabs_right (/ N)) by (apply Rle_ge; left; apply Rinv_0_lt_compat; lra). replace m with (N * m * / N) by (field; lra). apply Rmult_le_compat_r; [left; apply Rinv_0_lt_compat; lra|]. unfold N. rewrite <- hl. apply real_sum_le. exact ml. }
  set (F := fun x => fmul (fsub x M) (fsub x M)). set (P := N * u * m * m). assert (m2 : 0 <= m * m) by (apply Rmult_le_pos; lra).
  assert (Pm : 0 <= P <= / 2000000 * (m * m)). { unfold P. rewrite Rmult_assoc. split; [apply Rmult_le_pos; [apply Rmult_le_pos|]; lra|apply Rmult_le_compat_r; lra]. }
  destruct (tiny_beta m hm) as (t0 & t1 & t2 & b1). set (be := B (-528)) in *. assert (be0 : 0 < be) by apply bpow_gt_0.
  assert (terms : Forall (fun x => Rabs (real (F x) - (real x - mu) ^ 2) <= 78 * P + be /\ 0 <= real (F x) <= 41 / 10 * (m * m) + be /\ finite (F x)) l).
  { apply Forall_forall. intros x hin. rewrite Forall_forall in hx. destruct (hx x hin) as [fx bx]. destruct (square_near x M mu m N fx fM bx hmu hm h1 hNu hM2) as (f & p0 & p1 & p2). fold (F x) in *. fold P in p1. fold be in p1, p2. split; [exact p1|]. split; [split; [exact p0|lra]|exact f]. }
  destruct (terms_near F (fun x => (x - mu) ^ 2) l _ _ terms) as [hs hb]. rewrite hl in hs, hb. fold N in hs, hb. set (V := sum_of (fun x => (x - mu) ^ 2) l) in *.
  assert (hV : 0 <= V <= N * (4 * (m * m))). { unfold V, N. rewrite <- hl. apply sum_of_range. intros x hin. rewrite Forall_forall in ml. specialize (ml x hin). cbn beta in ml. apply Rabs_le_inv in ml. apply Rabs_le_inv in hmu. split; [apply pow2_ge_0|]. assert (k : 0 <= (2 * m - (real x - mu)) * (2 * m + (real x - mu))) by (apply Rmult_le_pos; lra). cbn [pow]. lra. }
  assert (mm : m * m <= B 960). { change 960%Z with (480 + 480)%Z. rewrite bpow_plus. apply Rmult_le_compat; lra. }
  assert (one960 : 1 <= B 960) by (change 1 with (B 0); apply bpow_le; lia).
  assert (bound : N * (41 / 10 * (m * m) + be) <= B 1000). { apply Rle_trans with (B 32 * (8 * B 960)); [apply Rmult_le_compat; lra|]. change 8 with (B 3). rewrite <- !bpow_plus. apply bpow_le. lia. }
  destruct (fold_sum (map F l) fzero 0 0 0) as [fS hS].
  { reflexivity. } { apply Forall_forall. intros y hy. apply in_map_iff in hy. destruct hy as (x & <- & hin). rewrite Forall_forall in terms. apply terms. exact hin. } { lra. } { rewrite Rplus_0_l. lra. }
  { rewrite map_length, hl. cbn [Nat.add]. fold N. lra. } { rewrite Rabs_R0. lra. } { change (real fzero) with 0. rewrite Rminus_0_r, Rabs_R0. cbn [INR]. lra. }
  rewrite map_length, hl in hS. cbn [Nat.add] in hS. fold N in hS. rewrite !Rplus_0_l in hS. set (S := fold_left fadd (map F l) fzero) in *.
  assert (S0 : 0 <= real S). { apply fold_nonneg; [exact fS|change (real fzero) with 0; lra|]. apply Forall_forall. intros y hy. apply in_map_iff in hy. destruct hy as (x & <- & hin). rewrite Forall_forall in terms. apply terms. exact hin. }
  assert (hS2 : Rabs (real S - V) <= N * (87 * P + 2 * be)).
  { eapply Rle_trans; [apply (via _ _ _ _ _ hS hs)|]. assert (k : 2 * N * u * rsum (map (fun x => Rabs (real x)) (map F l)) <= 2 * N * u * (N * (41 / 10 * (m * m) + be))) by (apply Rmult_le_compat_l; [apply Rmult_le_pos; lra|lra]).
    replace (2 * N * u * (N * (41 / 10 * (m * m) + be))) with (N * (82 / 10 * P + 2 * (N * u) * be)) in k by (unfold P; field). eapply Rle_trans; [apply Rplus_le_compat_r; exact k|]. rewrite <- Rmult_plus_distr_l. apply Rmult_le_compat_l; [lra|].
    assert ((N * u) * be <= / 2000000 * be) by (apply Rmult_le_compat_r; lra). lra. }
  assert (iN : 0 < / N) by (apply Rinv_0_lt_compat; lra).
  assert (hq : Rabs (real S / N - V / N) <= 87 * P + 2 * be). { replace (real S / N - V / N) with ((real S - V) * / N) by (field; lra). rewrite Rabs_mult, (Rabs_right (/ N)) by lra. replace (87 * P + 2 * be) with (N * (87 * P + 2 * be) * / N) by (field; lra). apply Rmult_le_compat_r; lra. }
  assert (hVN : 0 <= V / N <= 4 * (m * m)). { unfold Rdiv. split; [apply Rmult_le_pos; lra|]. replace (4 * (m * m)) with (N * (4 * (m * m)) * / N) by (field; lra). apply Rmult_le_compat_r; lra. }
  assert (SB : Rabs (real S) <= B 1020). { rewrite Rabs_right by lra. apply Rabs_le_inv in hS2. assert (N * (87 * P + 2 * be) <= N * (41 / 10 * (m * m) + be) + N * be) by (rewrite <- Rmult_plus_distr_l; apply Rmult_le_compat_l; lra). assert (N * be <= N * (41 / 10 * (m * m) + be)) by (apply Rmult_le_compat_l; lra).
    assert (N * (4 * (m * m)) <= N * (41 / 10 * (m * m) + be)) by (apply Rmult_le_compat_l; lra). assert (4 * B 1000 <= B 1020) by (change 4 with (B 2); rewrite <- bpow_plus; apply bpow_le; lia). lra. }
  destruct (div_count S n fS ltac:(lia) h32 SB) as (fv & ev & hv). fold N in ev, hv. set (W := fdiv S (f_of_Z (Z.of_nat n))) in *.
  assert (W0 : 0 <= real W). { rewrite ev. apply rnd_pos. apply Rmult_le_pos; lra. }
  assert (Sq : Rabs (real S / N) <= 5 * (m * m) + 2 * be). { assert (k : Rabs (V / N) <= 4 * (m * m)) by (rewrite Rabs_right; lra). eapply Rle_trans; [apply (near_bound _ _ _ _ hq k)|]. lra. }
  assert (um : u * (m * m) <= P). { unfold P. rewrite Rmult_assoc. apply Rmult_le_compat_r; [lra|]. rewrite <- (Rmult_1_l u) at 1. apply Rmult_le_compat_r; lra. }
  assert (hW : Rabs (real W - V / N) <= 92 * P + 4 * be). { assert (u * Rabs (real S / N) <= u * (5 * (m * m) + 2 * be)) by (apply Rmult_le_compat_l; lra). assert (u * be <= / 1000 * be) by (apply Rmult_le_compat_r; lra). eapply Rle_trans; [apply (via _ _ _ _ _ hv hq)|]. lra. }
  destruct (fsqrt_ok W fv W0) as [fr er]. exists (fsqrt W). split.
  { unfold samples_deviation64. rewrite eM. cbn [bind]. rewrite (loop_fold (fun x s => fadd s (fmul (fsub x M) (fsub x M))) a n fzero) by lia. cbn [bind]. fold l. rewrite (fold_map F). reflexivity. }
  split; [exact fr|]. split; [rewrite er; apply rnd_pos; apply sqrt_pos|]. unfold deviation. rewrite hl. fold mu. fold V. fold N.
  set (r := sqrt (N * u)). assert (r2 : r * r = N * u) by (apply sqrt_sqrt; apply Rmult_le_pos; lra). assert (r0 : 0 <= r) by apply sqrt_pos.
  assert (g : 0 < B (-263)) by apply bpow_gt_0. assert (g2 : 4 * be = B (-263) * B (-263)) by (unfold be; change 4 with (B 2); rewrite <- !bpow_plus; reflexivity).
  set (w := 96 / 10 * m * r + B (-263)). assert (mr0 : 0 <= m * r) by (apply Rmult_le_pos; lra). assert (w0 : 0 <= w) by (unfold w; lra).
  assert (hw : Rabs (sqrt (real W) - sqrt (V / N)) <= w).
  { eapply Rle_trans; [apply (sqrt_near _ _ _ W0 (proj1 hVN) hW)|]. apply Rsqr_incr_0_var; [|exact w0]. rewrite Rsqr_sqrt by lra. unfold Rsqr, w.
    replace ((96 / 10 * m * r + B (-263)) * (96 / 10 * m * r + B (-263))) with (96 / 10 * (96 / 10) * (m * m) * (r * r) + 2 * (96 / 10) * (m * r) * B (-263) + B (-263) * B (-263)) by ring. rewrite r2, <- g2.
    assert (0 <= m * r * B (-263)) by (apply Rmult_le_pos; lra). unfold P in *. nra. }
  assert (sv : sqrt (V / N) <= 2 * m). { rewrite <- (sqrt_square (2 * m)) by lra. apply sqrt_le_1_alt. lra. }
  assert (ur : u <= r / 1000). { assert (k : Rsqr (1000 * u) <= Rsqr r) by (unfold Rsqr; rewrite r2; assert (u * 1 <= u * N) by (apply Rmult_le_compat_l; lra); nra). apply Rsqr_incr_0_var in k; lra. }
  assert (sW : sqrt (real W) <= 2 * m + w) by (apply Rabs_le_inv in hw; lra). pose proof (sqrt_pos (real W)) as sW0.
  assert (fin : Rabs (rnd (sqrt (real W)) - sqrt (real W)) <= m * r / 100 + w / 1000 + tiny).
  { eapply Rle_trans; [apply rnd_any|]. rewrite Rabs_right by lra. assert (u * sqrt (real W) <= u * (2 * m + w)) by (apply Rmult_le_compat_l; lra). assert (u * m <= r / 1000 * m) by (apply Rmult_le_compat_r; lra). assert (u * w <= / 1000 * w) by (apply Rmult_le_compat_r; lra). lra. }
  rewrite er. eapply Rle_trans; [apply (via _ _ _ _ _ fin hw)|]. assert (last : / IZR (2 ^ 262) = 2 * B (-263)) by (change 2 with (B 1); rewrite <- bpow_plus; change (1 + -263)%Z with (- (262))%Z; rewrite bpow_opp, IZR_pow2 by lia; reflexivity).
  rewrite last. assert (tiny <= B (-263) / 10). { assert (B (-1022) <= B (-267)) by (apply bpow_le; lia). assert (16 * B (-267) = B (-263)) by (change 16 with (B 4); rewrite <- bpow_plus; reflexivity). pose proof (bpow_gt_0 radix2 (-267)). lra. }
  unfold w. lra.
Qed.
