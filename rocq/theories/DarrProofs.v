(** Proofs about DarrModel.v: differences, divisions, blends *)
From Coq Require Import ZArith Reals List Bool Lia Lra Psatz.
From Flocq Require Import Core BinarySingleNaN.
From Verif Require Import Base DblModel DblSpec DblProofs Dbl2Proofs DlineModel DlineProofs ArrModel ArrProofs ScaleProofs DarrModel DarrSpec.
Import ListNotations.
Open Scope R_scope.

Lemma one_real : finite (f_of_Z 1) /\ real (f_of_Z 1) = 1.
Proof. apply f_of_Z_exact. reflexivity. Qed.
Lemma get_some {A} (l : list A) i : (i < length l)%nat -> exists x, nth_error l i = Some x.
Proof. intros h. destruct (nth_error l i) eqn:e; [eauto|]. apply nth_error_None in e. lia. Qed.
Lemma in_front {A} (l : list A) n i x : (i < n)%nat -> nth_error l i = Some x -> In x (firstn n l).
Proof. intros h e. apply nth_error_In with i. rewrite nth_error_firstn by exact h. exact e. Qed.

(** ** Differences *)
Lemma differences_near a n out : (1 <= n <= length a)%nat -> (n - 1 <= length out)%nat -> Forall (fun x => finite x /\ Rabs (real x) <= B 1000) (firstn n a) ->
  exists out', samples_differences64 a n out = Some out' /\ rest_kept (n - 1) out out' /\
    forall i x y, (S i < n)%nat -> nth_error a i = Some x -> nth_error a (S i) = Some y ->
      exists v, nth_error out' i = Some v /\ finite v /\ Rabs (real v - (real y - real x)) <= u * Rabs (real y - real x).
Proof.
  intros ha ho hf. unfold samples_differences64.
  destruct (for_inv (fun k o => length o = length out /\ (forall i, (i < k - 1)%nat -> exists x y, nth_error a i = Some x /\ nth_error a (S i) = Some y /\ nth_error o i = Some (fsub y x)) /\
    (forall i, (k - 1 <= i)%nat -> nth_error o i = nth_error out i)) (fun i out => x <- aget a i ;; y <- aget a (i - 1) ;; aset out (i - 1) (fsub x y)) 1 n out) as (o & e & hl & h1 & h2).
  - lia.
  - split; [reflexivity|]. split; [|auto]. intros i hi. lia.
  - intros k o hk (hl & h1 & h2). destruct (get_some a k ltac:(lia)) as [y ey]. destruct (get_some a (k - 1) ltac:(lia)) as [x ex]. unfold aget. rewrite ey, ex. cbn [bind].
    destruct (aset_some o (k - 1) (fsub y x) ltac:(lia)) as [o' eo]. exists o'. split; [exact eo|]. split; [rewrite (aset_length _ _ _ _ eo); exact hl|]. split.
    + intros i hi. rewrite (aset_get _ _ _ _ i eo). destruct (Nat.eqb_spec i (k - 1)) as [->|ne].
      * exists x, y. replace (S (k - 1)) with k by lia. auto.
      * apply h1. lia.
    + intros i hi. rewrite (aset_get _ _ _ _ i eo). destruct (Nat.eqb_spec i (k - 1)); [lia|]. apply h2. lia.
  - exists o. split; [exact e|]. split; [split; [exact hl|exact h2]|]. intros i x y hi ex ey. destruct (h1 i ltac:(lia)) as (x' & y' & ex' & ey' & ev). rewrite ex in ex'. rewrite ey in ey'. injection ex' as <-. injection ey' as <-.
    exists (fsub y x). split; [exact ev|]. rewrite Forall_forall in hf. destruct (hf x (in_front a n i x ltac:(lia) ex)) as [fx bx]. destruct (hf y (in_front a n (S i) y ltac:(lia) ey)) as [fy b_y].
    destruct (fsub_ok y x fy fx) as (f1 & _ & er & her & r). { pose proof big_1000. pose proof (bpow_gt_0 radix2 1000). apply Rabs_le_inv in bx, b_y. apply Rabs_le. lra. }
    split; [exact f1|]. rewrite r. replace ((real y - real x) * (1 + er) - (real y - real x)) with ((real y - real x) * er) by ring. rewrite Rabs_mult, Rmult_comm. apply Rmult_le_compat_r; [apply Rabs_pos|exact her].
Qed.

(** ** Divisions *)
Lemma shrink n : few n -> 1 - INR n * u <= (1 - u) ^ n <= 1.
Proof.
  pose proof u_pos. pose proof u_16. intros _. induction n as [|n IH]; [cbn; lra|]. rewrite S_INR. cbn [pow]. pose proof (pos_INR n). nra.
Qed.
Lemma divisions_near start divisor n out : few n -> (n <= length out)%nat -> finite start -> finite divisor ->
  (forall i, (i < n)%nat -> B (-1000) <= Rabs (real start / real divisor ^ i) <= B 1000) ->
  exists out', samples_divisions64 start divisor n out = Some out' /\ rest_kept n out out' /\
    forall i, (i < n)%nat -> exists v, nth_error out' i = Some v /\ finite v /\ Rabs (real v - real start / real divisor ^ i) <= 2 * INR i * u * Rabs (real start / real divisor ^ i).
Proof.
  intros hn ho fs fd hr. unfold samples_divisions64. pose proof u_pos as up. pose proof u_16 as u16.
  set (good := fun k (v : f64) => finite v /\ exists m, (1 - u) ^ k <= m <= (1 + u) ^ k /\ real v = real start / real divisor ^ k * m).
  assert (fewer : forall k, (k <= n)%nat -> few k). { intros k hk. unfold few in *. apply le_INR in hk. lra. }
  destruct (for_inv (fun k '(o, s) => ((k < n)%nat -> good k s) /\ length o = length out /\ (forall i, (i < k)%nat -> exists v, nth_error o i = Some v /\ good i v) /\
    (forall i, (k <= i)%nat -> nth_error o i = nth_error out i)) (fun i '(out, start) => out <- aset out i start ;; Some (out, fdiv start divisor)) 0 n (out, start)) as ((o & s) & e & _ & hl & h1 & h2).
  - lia.
  - split; [|split; [reflexivity|split; [|auto]]].
    + intros _. split; [exact fs|]. exists 1. cbn [pow]. split; [lra|]. unfold Rdiv. rewrite Rinv_1. ring.
    + intros i hi. lia.
  - intros k [o s] hk (hg & hl & h1 & h2). destruct (aset_some o k s ltac:(lia)) as [o' eo]. exists (o', fdiv s divisor). rewrite eo. cbn [bind]. split; [reflexivity|].
    destruct (hg ltac:(lia)) as (fin & m & hm & rs). split; [|split; [rewrite (aset_length _ _ _ _ eo); exact hl|split]].
    + intros hk'. pose proof (hr (S k) hk') as hb. assert (d0 : real divisor <> 0).
      { intros z. rewrite z in hb. cbn [pow] in hb. rewrite Rmult_0_l in hb. unfold Rdiv in hb. rewrite Rinv_0, Rmult_0_r, Rabs_R0 in hb. pose proof (bpow_gt_0 radix2 (-1000)). lra. }
      assert (q : real s / real divisor = real start / real divisor ^ S k * m). { rewrite rs. cbn [pow]. field. repeat split; try exact d0; apply pow_nonzero; exact d0. }
      pose proof (growth_2 k (fewer k ltac:(lia))) as g2. pose proof (shrink k (fewer k ltac:(lia))) as sk. pose proof (few_u k (fewer k ltac:(lia))) as fu.
      assert (qa : Rabs (real s / real divisor) = Rabs (real start / real divisor ^ S k) * m) by (rewrite q, Rabs_mult, (Rabs_pos_eq m) by lra; reflexivity).
      assert (b1 : B (-1001) = / 2 * B (-1000)) by (change (/ 2) with (B (-1)); rewrite <- bpow_plus; reflexivity).
      assert (b2 : B (-1022) <= B (-1001)) by (apply bpow_le; lia). pose proof (bpow_gt_0 radix2 (-1000)). pose proof big_1000. pose proof (bpow_gt_0 radix2 1000).
      destruct (fdiv_fin s divisor fin d0) as [f2 r2]; [rewrite qa; nra|]. split; [exact f2|].
      destruct (rnd_rel_normal (real s / real divisor)) as (er & her & hre); [rewrite qa; nra|].
      exists (m * (1 + er)). apply Rabs_le_inv in her. assert (p1 : 0 <= (1 - u) ^ k) by (apply pow_le; lra). split; [cbn [pow]; split; nra|]. rewrite r2, hre, q. ring.
    + intros i hi. rewrite (aset_get _ _ _ _ i eo). destruct (Nat.eqb_spec i k) as [->|ne]; [exists s; split; [reflexivity|split; [exact fin|eauto]]|]. apply h1. lia.
    + intros i hi. rewrite (aset_get _ _ _ _ i eo). destruct (Nat.eqb_spec i k); [lia|]. apply h2. lia.
  - exists o. rewrite e. cbn [bind]. split; [reflexivity|]. split; [split; assumption|]. intros i hi. destruct (h1 i hi) as (v & ev & fv & m & hm & rv). exists v. split; [exact ev|]. split; [exact fv|].
    rewrite rv. replace (real start / real divisor ^ i * m - real start / real divisor ^ i) with (real start / real divisor ^ i * (m - 1)) by ring. rewrite Rabs_mult, Rmult_comm. apply Rmult_le_compat_r; [apply Rabs_pos|].
    pose proof (growth i (fewer i ltac:(lia))). pose proof (shrink i (fewer i ltac:(lia))). pose proof (pos_INR i). assert (0 <= INR i * u) by nra. apply Rabs_le. lra.
Qed.

(** ** Blend *)
Lemma blend_value a b t M : finite a -> finite b -> finite t -> 0 <= real t <= 1 -> Rabs (real a) <= M -> Rabs (real b) <= M -> M <= B 1000 ->
  finite (sample_interpolate64 a b t) /\ Rabs (real (sample_interpolate64 a b t) - ((1 - real t) * real a + real t * real b)) <= 4 * u * M + B (-1020) /\
  (real t = 0 -> real (sample_interpolate64 a b t) = real a) /\ (real t = 1 -> real (sample_interpolate64 a b t) = real b).
Proof.
  intros fa fb ft ht ha hb hM. pose proof u_pos. pose proof u_16. destruct one_real as [f1 r1]. pose proof big_1000. pose proof (bpow_gt_0 radix2 1000). pose proof (bpow_gt_0 radix2 (-1022)) as zp.
  assert (M0 : 0 <= M) by (pose proof (Rabs_pos (real a)); lra).
  assert (l0 : B 0 <= B 1000) by (apply bpow_le; lia). change (B 0) with 1 in l0. assert (z1 : B (-1022) <= B 0) by (apply bpow_le; lia). change (B 0) with 1 in z1.
  destruct (fsub_ok (f_of_Z 1) t f1 ft) as (fv & rv & e1 & he1 & rv'); [rewrite r1; apply Rabs_le; lra|]. rewrite r1 in rv, rv'. set (v := fsub (f_of_Z 1) t) in *.
  apply Rabs_le_inv in he1. assert (v2 : Rabs (real v) <= 2) by (rewrite rv'; apply Rabs_le; nra).
  assert (va : Rabs (real v * real a) <= 2 * M) by (apply Rabs_prod_le; auto). destruct (fmul_fin v a fv fa) as [fp rp]; [lra|]. set (p := fmul v a) in *.
  assert (t1 : Rabs (real t) <= 1) by (apply Rabs_le; lra). assert (tb : Rabs (real t * real b) <= 1 * M) by (apply Rabs_prod_le; auto). destruct (fmul_fin t b ft fb) as [fq rq]; [lra|]. set (q := fmul t b) in *.
  pose proof (rnd_any (real v * real a)) as ep. rewrite <- rp in ep. pose proof (rnd_any (real t * real b)) as eq. rewrite <- rq in eq. set (z := B (-1022)) in *.
  set (T := real t) in *. set (A := real a) in *. set (C := real b) in *.
  assert (hA : Rabs (real v * A) <= (1 - T) * M * (1 + u)). { rewrite rv'. rewrite Rabs_mult, Rabs_mult, (Rabs_pos_eq (1 - T)), (Rabs_pos_eq (1 + e1)) by lra. pose proof (Rabs_pos A).
    assert (Rabs A * (1 + e1) <= M * (1 + u)) by (apply Rmult_le_compat; lra). nra. }
  assert (hC : Rabs (T * C) <= T * M). { rewrite Rabs_mult, (Rabs_pos_eq T) by lra. apply Rmult_le_compat_l; lra. }
  assert (dA : Rabs (real v * A - (1 - T) * A) <= (1 - T) * M * u). { rewrite rv'. replace ((1 - T) * (1 + e1) * A - (1 - T) * A) with ((1 - T) * (e1 * A)) by ring. rewrite Rabs_mult, (Rabs_pos_eq (1 - T)) by lra.
    rewrite Rmult_assoc. apply Rmult_le_compat_l; [lra|]. rewrite (Rmult_comm M). apply Rabs_prod_le; [apply Rabs_le; lra|exact ha]. }
  assert (Mu : 0 <= M * u) by nra. assert (Muu : M * u * u <= M * u * / 16) by nra. assert (TM : 0 <= T * (M * u) <= M * u) by nra. assert (TMu : 0 <= T * (M * u * u) <= M * u * u) by nra.
  assert (bp : Rabs (real p - (1 - T) * A) <= (1 - T) * M * (2 * u + u * u) + z). { replace (real p - (1 - T) * A) with ((real p - real v * A) + (real v * A - (1 - T) * A)) by ring. eapply Rle_trans; [apply Rabs_triang|]. nra. }
  assert (bq : Rabs (real q - T * C) <= T * M * u + z) by nra.
  assert (bs : Rabs ((real p + real q) - ((1 - T) * A + T * C)) <= 2 * (M * u) + M * u * u + 2 * z).
  { replace (real p + real q - ((1 - T) * A + T * C)) with ((real p - (1 - T) * A) + (real q - T * C)) by ring. eapply Rle_trans; [apply Rabs_triang|]. nra. }
  assert (mid : Rabs ((1 - T) * A + T * C) <= M). { eapply Rle_trans; [apply Rabs_triang|]. rewrite !Rabs_mult, (Rabs_pos_eq (1 - T)), (Rabs_pos_eq T) by lra. nra. }
  assert (bt : Rabs (real p + real q) <= M + 2 * (M * u) + M * u * u + 2 * z). { replace (real p + real q) with ((real p + real q - ((1 - T) * A + T * C)) + ((1 - T) * A + T * C)) by ring. eapply Rle_trans; [apply Rabs_triang|]. lra. }
  assert (Ms : M * u <= M * / 16) by (apply Rmult_le_compat_l; lra). destruct (fadd_ok p q fp fq) as (fr & rr & e2 & he2 & rr'); [lra|]. unfold sample_interpolate64. fold v p q. split; [exact fr|]. split; [|split].
  - rewrite rr'. replace ((real p + real q) * (1 + e2) - ((1 - T) * A + T * C)) with ((real p + real q - ((1 - T) * A + T * C)) + (real p + real q) * e2) by ring. eapply Rle_trans; [apply Rabs_triang|].
    assert (Rabs ((real p + real q) * e2) <= (M + 2 * (M * u) + M * u * u + 2 * z) * u) by (apply Rabs_prod_le; auto).
    assert (e4 : B (-1020) = 4 * z) by (change 4 with (B 2); unfold z; rewrite <- bpow_plus; reflexivity). rewrite e4. assert (M * u * u * u <= M * u * u * 1) by (apply Rmult_le_compat_l; lra). assert (z * u <= z * 1) by (apply Rmult_le_compat_l; lra). lra.
  - intros h0. rewrite rr, rq, rp, rv, h0. rewrite Rmult_0_l, (rnd_id 0), Rplus_0_r by apply generic_format_0. rewrite Rminus_0_r. rewrite (rnd_id 1) by (rewrite <- r1; apply format_real). rewrite Rmult_1_l. unfold A. rewrite !(rnd_id (real a)) by apply format_real. reflexivity.
  - intros h0. rewrite rr, rq, rp, rv, h0. replace (1 - 1) with 0 by ring. rewrite (rnd_id 0), Rmult_0_l, (rnd_id 0), Rplus_0_l, Rmult_1_l by apply generic_format_0. unfold C. rewrite !(rnd_id (real b)) by apply format_real. reflexivity.
Qed.
Lemma blend_near a b t n out M : (n <= length a)%nat -> (n <= length b)%nat -> (n <= length out)%nat -> finite t -> 0 <= real t <= 1 -> M <= B 1000 ->
  Forall (fun x => finite x /\ Rabs (real x) <= M) (firstn n a) -> Forall (fun x => finite x /\ Rabs (real x) <= M) (firstn n b) ->
  exists out', samples_blend64 a b t n out = Some out' /\ rest_kept n out out' /\
    forall i x y, (i < n)%nat -> nth_error a i = Some x -> nth_error b i = Some y -> exists v, nth_error out' i = Some v /\ finite v /\
      Rabs (real v - ((1 - real t) * real x + real t * real y)) <= 4 * u * M + B (-1020) /\ (real t = 0 -> real v = real x) /\ (real t = 1 -> real v = real y).
Proof.
  intros ha hb ho ft ht hM ga gb. destruct (tab_loop (fun i => x <- aget a i ;; y <- aget b i ;; Some (sample_interpolate64 x y t))
    (fun i v => forall x y, nth_error a i = Some x -> nth_error b i = Some y -> v = sample_interpolate64 x y t) n out ho) as (o & e & hl & h1 & h2).
  - intros i hi. destruct (get_some a i ltac:(lia)) as [x ex]. destruct (get_some b i ltac:(lia)) as [y ey]. unfold aget. rewrite ex, ey. cbn [bind]. eexists. split; [reflexivity|]. intros x' y' e1 e2. injection e1 as <-. injection e2 as <-. reflexivity.
  - exists o. split; [|split; [split; assumption|]].
    + rewrite <- e. unfold samples_blend64. apply for_ext. intros i l. destruct (aget a i); [|reflexivity]. cbn [bind]. destruct (aget b i); reflexivity.
    + intros i x y hi ex ey. destruct (h1 i hi) as (v & _ & ev & hv). exists v. split; [exact ev|]. rewrite (hv x y ex ey). rewrite Forall_forall in ga, gb.
      destruct (ga x (in_front a n i x hi ex)). destruct (gb y (in_front b n i y hi ey)). now apply blend_value.
Qed.
