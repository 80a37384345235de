(** Proofs about DarrModel.v: scaling to a sum and to a peak *)
From Coq Require Import ZArith Reals List Bool Lia Lra Psatz.
From Flocq Require Import Core BinarySingleNaN.
From Verif Require Import Base DblModel DblSpec DblProofs Dbl2Proofs DlineModel DlineProofs DstatModel DstatProofs ArrModel Scale2Proofs DarrModel DarrSpec DarrProofs.
Import ListNotations.
Open Scope R_scope.

Lemma map_front {A B} (g : A -> B) n (l : list A) (r : list B) i x : (i < n)%nat -> (n <= length l)%nat -> nth_error l i = Some x -> nth_error (map g (firstn n l) ++ r) i = Some (g x).
Proof. intros hi hl e. rewrite nth_error_app1 by (rewrite map_length, firstn_length; lia). apply map_nth_error. rewrite nth_error_firstn by exact hi. exact e. Qed.
Lemma map_rest {A} (g : A -> A) n (l : list A) : (n <= length l)%nat -> length (map g (firstn n l) ++ skipn n l) = length l /\ forall i, (n <= i)%nat -> nth_error (map g (firstn n l) ++ skipn n l) i = nth_error l i.
Proof.
  intros h. split; [rewrite app_length, map_length, firstn_length, skipn_length; lia|]. intros i hi. rewrite nth_error_app2 by (rewrite map_length, firstn_length; lia). rewrite map_length, firstn_length, Nat.min_l by exact h.
  rewrite nth_error_skipn. f_equal. lia.
Qed.

(** ** Scaling to a sum *)
Lemma inv_shift x y e : x <> 0 -> Rabs (y - x) <= e * Rabs x -> 0 <= e <= / 4 -> y <> 0 /\ Rabs (x / y - 1) <= 2 * e /\ Rabs y >= / 2 * Rabs x.
Proof.
  intros hx h he. assert (xp : 0 < Rabs x) by now apply Rabs_pos_lt. assert (yb : Rabs y >= (1 - e) * Rabs x). { replace y with (x + (y - x)) by ring. pose proof (Rabs_triang_inv x (x - y)). replace (x - (x - y)) with y in H by ring. rewrite (Rabs_minus_sym x y) in H. replace (x + (y - x)) with y by ring. nra. }
  assert (y0 : y <> 0). { intros ->. rewrite Rabs_R0 in yb. nra. } split; [exact y0|]. split; [|nra].
  replace (x / y - 1) with (- (y - x) / y) by (field; exact y0). unfold Rdiv. rewrite Rabs_mult, Rabs_Ropp, Rabs_inv. assert (yp : 0 < Rabs y) by now apply Rabs_pos_lt.
  apply Rmult_le_reg_r with (Rabs y); [exact yp|]. rewrite Rmult_assoc, Rinv_l, Rmult_1_r by lra. assert (e * Rabs x <= / 4 * Rabs x) by (apply Rmult_le_compat_r; lra). assert (h2 : / 2 * Rabs x <= Rabs y) by lra. apply (Rmult_le_compat_l (2 * e)) in h2; lra.
Qed.
Lemma abs_in l x : In x l -> Rabs (real x) <= real_abs_sum l.
Proof. induction l as [|y l IH]; [intros []|]. intros [->|h]; cbn [real_abs_sum]; [pose proof (real_abs_sum_pos l); lra|]. pose proof (Rabs_pos (real y)). specialize (IH h). lra. Qed.
Lemma factor_near t s S E : finite t -> finite s -> S <> 0 -> 0 <= E <= / 4 -> Rabs (real s - S) <= E * Rabs S -> B (-500) <= Rabs (real t) <= B 490 -> B (-490) <= Rabs S <= B 490 ->
  finite (fdiv t s) /\ Rabs (real (fdiv t s) - real t / S) <= (2 * E + 2 * u) * Rabs (real t / S).
Proof.
  intros ft fs hS hE h ht hb. pose proof u_pos. pose proof u_16. destruct (inv_shift S (real s) E hS h hE) as (s0 & q & sb). assert (Sp : 0 < Rabs S) by now apply Rabs_pos_lt. assert (sp : 0 < Rabs (real s)) by now apply Rabs_pos_lt.
  set (g := real t / S). assert (qe : real t / real s = g * (S / real s)) by (unfold g; field; auto).
  assert (ga : Rabs g = Rabs (real t) / Rabs S) by (unfold g, Rdiv; rewrite Rabs_mult, Rabs_inv; reflexivity).
  assert (gl : B (-990) <= Rabs g). { rewrite ga. apply Rmult_le_reg_r with (Rabs S); [exact Sp|]. unfold Rdiv. rewrite Rmult_assoc, Rinv_l, Rmult_1_r by lra. apply Rle_trans with (B (-990) * B 490); [apply Rmult_le_compat_l; [apply bpow_ge_0|lra]|]. rewrite <- bpow_plus. change (-990 + 490)%Z with (-500)%Z. lra. }
  assert (gh : Rabs g <= B 980). { rewrite ga. apply Rmult_le_reg_r with (Rabs S); [exact Sp|]. unfold Rdiv. rewrite Rmult_assoc, Rinv_l, Rmult_1_r by lra. apply Rle_trans with (B 980 * B (-490)); [rewrite <- bpow_plus; change (980 + -490)%Z with 490%Z; lra|]. apply Rmult_le_compat_l; [apply bpow_ge_0|lra]. }
  assert (k1 : / 2 <= Rabs (S / real s) <= 2). { apply Rabs_le_inv in q. rewrite Rabs_pos_eq by lra. lra. }
  assert (qa : Rabs (real t / real s) = Rabs g * Rabs (S / real s)) by (rewrite qe; apply Rabs_mult).
  assert (l1 : B 980 <= B 1000) by (apply bpow_le; lia). pose proof big_1000. pose proof (bpow_gt_0 radix2 980). pose proof (bpow_gt_0 radix2 (-990)).
  assert (l2 : B (-1022) <= B (-991)) by (apply bpow_le; lia). assert (l3 : B (-991) = / 2 * B (-990)) by (change (/ 2) with (B (-1)); rewrite <- bpow_plus; reflexivity).
  destruct (fdiv_fin t s ft s0) as [f1 r1]; [rewrite qa; nra|]. split; [exact f1|]. destruct (rnd_rel_normal (real t / real s)) as (e & he & re); [rewrite qa; nra|]. rewrite r1, re, qe.
  replace (g * (S / real s) * (1 + e) - g) with (g * ((S / real s - 1) + (S / real s) * e)) by ring. rewrite Rabs_mult, Rmult_comm. apply Rmult_le_compat_r; [apply Rabs_pos|].
  eapply Rle_trans; [apply Rabs_triang|]. assert (Rabs (S / real s * e) <= 2 * u) by (apply Rabs_prod_le; tauto). lra.
Qed.
Lemma scaled_near x f g D : finite x -> finite f -> 0 <= D <= 1 -> Rabs (real f - g) <= D * Rabs g -> Rabs (real x * g) <= B 1020 ->
  finite (fmul x f) /\ Rabs (real (fmul x f) - real x * g) <= (D + 2 * u) * Rabs (real x * g) + B (-1022).
Proof.
  intros fx ff hD h hb. pose proof u_pos. assert (d : Rabs (real x * real f - real x * g) <= D * Rabs (real x * g)).
  { rewrite <- Rmult_minus_distr_l, !Rabs_mult. pose proof (Rabs_pos (real x)). nra. }
  assert (b : Rabs (real x * real f) <= 2 * Rabs (real x * g)). { replace (real x * real f) with ((real x * real f - real x * g) + real x * g) by ring. eapply Rle_trans; [apply Rabs_triang|]. pose proof (Rabs_pos (real x * g)). nra. }
  assert (e2 : B 1022 = 4 * B 1020) by (change 4 with (B 2); rewrite <- bpow_plus; reflexivity). pose proof (bpow_gt_0 radix2 1020).
  destruct (fmul_fin x f fx ff) as [f1 r1]; [lra|]. split; [exact f1|]. pose proof (rnd_any (real x * real f)) as r. rewrite <- r1 in r.
  replace (real (fmul x f) - real x * g) with ((real (fmul x f) - real x * real f) + (real x * real f - real x * g)) by ring. eapply Rle_trans; [apply Rabs_triang|]. pose proof (Rabs_pos (real x * g)). nra.
Qed.
Lemma sum_mult_near f g E z l : Forall (fun x => Rabs (real (fmul x f) - real x * g) <= E * Rabs (real x * g) + z) l -> Rabs (real_sum (map (fun x => fmul x f) l) - g * real_sum l) <= E * (Rabs g * real_abs_sum l) + INR (length l) * z.
Proof.
  induction 1 as [|x l h _ IH]; [cbn [map real_sum real_abs_sum length INR]; rewrite !Rmult_0_r, Rminus_0_r, Rabs_R0; lra|]. cbn [map real_sum real_abs_sum length]. rewrite S_INR. rewrite Rabs_mult in h.
  replace (real (fmul x f) + real_sum (map (fun x => fmul x f) l) - g * (real x + real_sum l)) with ((real (fmul x f) - real x * g) + (real_sum (map (fun x => fmul x f) l) - g * real_sum l)) by ring.
  eapply Rle_trans; [apply Rabs_triang|]. nra.
Qed.
Lemma scale_sum_near l n t K : (1 <= n <= length l)%nat -> few n -> Forall finite (firstn n l) -> finite t -> 1 <= K -> 48 * INR n * u * K <= 1 -> real_abs_sum (firstn n l) <= K * Rabs (real_sum (firstn n l)) ->
  B (-490) <= Rabs (real_sum (firstn n l)) <= B 490 -> B (-500) <= Rabs (real t) <= B 490 ->
  exists l', samples_scale_sum64 l n t = Some l' /\ rest_kept n l l' /\ Forall finite (firstn n l') /\
    (forall i x, (i < n)%nat -> nth_error l i = Some x -> exists y, nth_error l' i = Some y /\
      Rabs (real y - real x * (real t / real_sum (firstn n l))) <= 28 * INR n * K * u * Rabs (real x * (real t / real_sum (firstn n l))) + B (-1022)) /\
    Rabs (real_sum (firstn n l') - real t) <= 28 * INR n * K ^ 2 * u * Rabs (real t) + INR n * B (-1022).
Proof.
  intros hn hfew hf ft hK hu hc hb ht. pose proof u_pos. set (S := real_sum (firstn n l)) in *. set (A := real_abs_sum (firstn n l)) in *. assert (n1 : 1 <= INR n) by (change 1 with (INR 1); apply le_INR; lia).
  assert (k2 : K <= B 53). { assert (uk : 0 < u * K) by (apply Rmult_lt_0_compat; lra). assert (w : 1 * (u * K) <= INR n * (u * K)) by (apply Rmult_le_compat_r; lra). assert (w2 : K * u <= 1) by lra. pose proof u_num as un. change (IZR (2 ^ 53)) with (B 53) in un. rewrite <- un in w2. rewrite (Rmult_comm u) in w2. apply Rmult_le_reg_r with u; assumption. }
  assert (Ab : A <= B 550). { apply Rle_trans with (1 := hc). apply Rle_trans with (B 53 * B 490); [apply Rmult_le_compat; try lra; apply Rabs_pos|]. rewrite <- bpow_plus. apply bpow_le. lia. }
  assert (A1000 : A <= B 1000) by (apply Rle_trans with (1 := Ab), bpow_le; lia).
  destruct (sum64_general l n hn hfew hf A1000) as (s & es & fs & hs). fold S A in hs.
  assert (S0 : S <> 0). { intros z. rewrite z, Rabs_R0 in hb. pose proof (bpow_gt_0 radix2 (-490)). lra. }
  set (E := 12 * INR n * u * K). assert (np : 0 < INR n * u * K) by (apply Rmult_lt_0_compat; [apply Rmult_lt_0_compat; lra|lra]). assert (hE : 0 <= E <= / 4) by (unfold E; lra).
  assert (hsE : Rabs (real s - S) <= E * Rabs S). { eapply Rle_trans; [exact hs|]. unfold E. assert (0 <= INR n * u) by nra. nra. }
  destruct (factor_near t s S E ft fs S0 hE hsE ht hb) as [ff hfac]. set (g := real t / S) in *. set (f := fdiv t s) in *.
  set (D := 2 * E + 2 * u). assert (hu16 : u <= / 16) by exact u_16. assert (hD : 0 <= D <= 1) by (unfold D; lra).
  assert (DE : D + 2 * u <= 28 * INR n * K * u). { unfold D, E. assert (1 <= INR n * K) by nra. nra. }
  assert (each : Forall (fun x => finite (fmul x f) /\ Rabs (real (fmul x f) - real x * g) <= 28 * INR n * K * u * Rabs (real x * g) + B (-1022)) (firstn n l)).
  { rewrite Forall_forall in *. intros x hx. pose proof (abs_in _ _ hx) as xa. fold A in xa. destruct (scaled_near x f g D (hf x hx) ff hD hfac) as [r1 r2].
    - rewrite Rabs_mult. unfold g, Rdiv. rewrite Rabs_mult, Rabs_inv. assert (Sp : 0 < Rabs S) by now apply Rabs_pos_lt.
      apply Rle_trans with (B 53 * B 490); [|rewrite <- bpow_plus; apply bpow_le; lia]. apply Rmult_le_reg_r with (Rabs S); [exact Sp|]. replace (Rabs (real x) * (Rabs (real t) * / Rabs S) * Rabs S) with (Rabs (real x) * Rabs (real t)) by (field; lra).
      apply Rle_trans with ((B 53 * Rabs S) * B 490); [|right; ring]. apply Rmult_le_compat; try apply Rabs_pos; [|lra]. apply Rle_trans with A; [exact xa|]. apply Rle_trans with (1 := hc). nra.
    - split; [exact r1|]. eapply Rle_trans; [exact r2|]. pose proof (Rabs_pos (real x * g)). nra. }
  assert (run : samples_scale_sum64 l n t = Some (map (fun x => fmul x f) (firstn n l) ++ skipn n l)). { unfold samples_scale_sum64. rewrite es. cbn [bind]. apply multiply_front. lia. }
  eexists. split; [exact run|]. split; [apply map_rest; lia|].
  assert (fr : firstn n (map (fun x => fmul x f) (firstn n l) ++ skipn n l) = map (fun x => fmul x f) (firstn n l)).
  { assert (ln : length (map (fun x => fmul x f) (firstn n l)) = n) by (rewrite map_length, firstn_length; lia). rewrite <- ln at 1. rewrite firstn_app, Nat.sub_diag, firstn_O, app_nil_r. apply firstn_all. }
  rewrite fr. split; [|split].
  - apply Forall_map. eapply Forall_impl; [|exact each]. cbv beta. tauto.
  - intros i x hi ex. eexists. split; [apply map_front; [exact hi|lia|exact ex]|]. rewrite Forall_forall in each. apply each. now apply in_front with i.
  - pose proof (sum_mult_near f g (28 * INR n * K * u) (B (-1022)) (firstn n l)) as sm. rewrite firstn_length, Nat.min_l in sm by lia. fold S A in sm. replace (g * S) with (real t) in sm by (unfold g; field; exact S0).
    eapply Rle_trans; [apply sm; eapply Forall_impl; [|exact each]; cbv beta; tauto|]. apply Rplus_le_compat_r. replace (28 * INR n * K ^ 2 * u * Rabs (real t)) with (28 * INR n * K * u * (K * Rabs (real t))) by ring.
    apply Rmult_le_compat_l; [assert (0 <= INR n * K) by nra; nra|]. unfold g, Rdiv. rewrite Rabs_mult, Rabs_inv. assert (Sp : 0 < Rabs S) by now apply Rabs_pos_lt.
    apply Rmult_le_reg_r with (Rabs S); [exact Sp|]. replace (Rabs (real t) * / Rabs S * A * Rabs S) with (Rabs (real t) * A) by (field; lra). pose proof (Rabs_pos (real t)). nra.
Qed.
