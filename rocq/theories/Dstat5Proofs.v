(** Scaling samples to times: whole arrays *)
From Coq Require Import ZArith Reals List Bool Lia Lra Psatz.
From Flocq Require Import Core BinarySingleNaN.
From Verif Require Import Base DblModel DblSpec DblProofs Dbl2Proofs ArrProofs KerProofs DlineProofs DfftModel DfftProofs DkerProofs SortModel DstatModel DstatSpec DstatProofs Dstat2Proofs Dstat4Proofs.
Import ListNotations.
Open Scope R_scope.

Lemma each_some (g : f64 -> option Z) (a : list f64) n (out : list Z) : (n <= length a)%nat -> (n <= length out)%nat -> (forall x, In x (firstn n a) -> exists v, g x = Some v) ->
  exists out', for_ 0 n (fun i out => x <- aget a i ;; v <- g x ;; aset out i v) out = Some out' /\ length out' = length out /\
    (forall i, (i < n)%nat -> exists x y, nth_error a i = Some x /\ In x (firstn n a) /\ nth_error out' i = Some y /\ g x = Some y) /\ forall i, (n <= i)%nat -> nth_error out' i = nth_error out i.
Proof.
  intros ha ho hg.
  destruct (for_inv (fun k o => length o = length out /\ (forall i, (i < k)%nat -> exists x y, nth_error a i = Some x /\ In x (firstn n a) /\ nth_error o i = Some y /\ g x = Some y) /\ forall i, (k <= i)%nat -> nth_error o i = nth_error out i)
    (fun i out => x <- aget a i ;; v <- g x ;; aset out i v) 0 n out) as (o & e & h1 & h2 & h3).
  - lia.
  - splits; auto. intros; lia.
  - intros i o hi (h1 & h2 & h3). destruct (nth_error a i) as [x|] eqn:ex; [|apply nth_error_None in ex; lia].
    assert (ix : In x (firstn n a)) by (apply (nth_error_In _ i); rewrite nth_error_firstn by lia; exact ex).
    destruct (hg x ix) as [v ev]. destruct (aset_some o i v) as [o' e]; [lia|]. exists o'. unfold aget. rewrite ex. cbn [bind]. rewrite ev. cbn [bind]. split; [exact e|]. splits.
    + rewrite (aset_length _ _ _ _ e). exact h1.
    + intros j hj. rewrite (aset_get _ _ _ _ j e). destruct (Nat.eqb_spec j i) as [->|n0]; [exists x, v; auto|]. apply h2. lia.
    + intros j hj. rewrite (aset_get _ _ _ _ j e). destruct (Nat.eqb_spec j i) as [->|n0]; [lia|]. apply h3. lia.
  - exists o. auto.
Qed.
Lemma scale_ok a size max out low high : (1 <= size <= length a)%nat -> (size <= length out)%nat -> (0 <= max < 2 ^ 32)%Z -> Forall finite (firstn size a) -> smallest (firstn size a) low -> greatest (firstn size a) high ->
  real low <= 0 -> / IZR (2 ^ 900) <= real high - real low <= IZR (2 ^ 990) ->
  exists out', scale_to_times64 a size max out = Some out' /\ length out' = length out /\
    (forall i, (i < size)%nat -> exists x y, nth_error a i = Some x /\ nth_error out' i = Some y /\ (0 <= y <= max)%Z /\
      Rabs (IZR y - IZR max * ((real x - real low) / (real high - real low))) <= / 2 + / IZR (2 ^ 18) /\ (real x = real low -> y = 0%Z) /\ (real x = real high -> y = max)) /\
    (forall i j x x' y y', (i < size)%nat -> (j < size)%nat -> nth_error a i = Some x -> nth_error a j = Some x' -> nth_error out' i = Some y -> nth_error out' j = Some y' -> real x <= real x' -> (y <= y')%Z) /\
    (forall i, (size <= i)%nat -> nth_error out' i = nth_error out i).
Proof.
  intros hn ho hM hf hlow hhigh h0 hD. rewrite (IZR_pow2 990) in hD by lia. replace (/ IZR (2 ^ 900)) with (B (-900)) in hD by reflexivity.
  destruct (range_ok a size hn hf) as (mn & mx & e & fmn & fmx & smn & gmx). unfold scale_to_times64. rewrite e. cbn [bind]. set (l := firstn size a) in *.
  assert (el : real mn = real low). { destruct smn as [i1 m1], hlow as [i2 m2]. rewrite Forall_forall in m1, m2. specialize (m1 _ i2). specialize (m2 _ i1). cbn beta in *. lra. }
  assert (eh : real mx = real high). { destruct gmx as [i1 m1], hhigh as [i2 m2]. rewrite Forall_forall in m1, m2. specialize (m1 _ i2). specialize (m2 _ i1). cbn beta in *. lra. }
  rewrite <- el, <- eh in *. set (ad := if flt mn fzero then fabs64 mn else fzero).
  assert (had : finite ad /\ real ad = - real mn). { unfold ad. rewrite flt_ok by (exact fmn || reflexivity). change (real fzero) with 0. destruct (Rlt_bool_spec (real mn) 0) as [h|h].
    - destruct (fabs_real mn fmn) as [h1 h2]. split; [exact h1|]. rewrite h2, Rabs_left; lra.
    - split; [reflexivity|]. change (real fzero) with 0. lra. }
  destruct had as [fad ead]. destruct (scale_value mn mx max fmn fmx hM hD) as (ff & f0 & val). set (f := fdiv (f_of_Z max) (fsub mx mn)) in *. set (D := real mx - real mn) in *.
  assert (Dpos : 0 < D) by (pose proof (bpow_gt_0 radix2 (-900)); lra).
  assert (inl : forall x, In x l -> finite x /\ real mn <= real x <= real mx). { intros x hin. rewrite Forall_forall in hf. split; [apply hf; exact hin|]. destruct smn as [_ m1], gmx as [_ m2]. rewrite Forall_forall in m1, m2. split; [apply m1|apply m2]; exact hin. }
  destruct (each_some (fun x => cheap_round64 (fmul (fadd x ad) f)) a size out ltac:(lia) ho) as (o & eo & lo & each & rest).
  { intros x hin. destruct (inl x hin) as [fx bx]. destruct (val x ad fx fad ead bx) as (_ & _ & _ & _ & er). eexists. exact er. }
  exists o. split; [exact eo|]. split; [exact lo|]. split; [|split; [|exact rest]].
  - intros i hi. destruct (each i hi) as (x & y & ex & ix & ey & ev). exists x, y. split; [exact ex|]. split; [exact ey|]. destruct (inl x ix) as [fx bx]. destruct (val x ad fx fad ead bx) as (fz & ez & z0 & zn & er). rewrite er in ev. injection ev as <-.
    set (z := fmul (fadd x ad) f) in *. set (w := (real x - real mn) / D) in *.
    assert (hw : 0 <= w <= 1). { unfold w. split; [apply Rmult_le_pos; [lra|left; apply Rinv_0_lt_compat; lra]|]. apply (Rmult_le_reg_r D); [lra|]. replace ((real x - real mn) / D * D) with (real x - real mn) by (field; lra). unfold D. lra. }
    assert (M0 : 0 <= IZR max) by (apply IZR_le; lia). assert (hw2 : 0 <= IZR max * w <= IZR max). { split; [apply Rmult_le_pos; lra|]. rewrite <- (Rmult_1_r (IZR max)) at 2. apply Rmult_le_compat_l; lra. }
    destruct (to_time_near (real z) max (IZR max * w) _ hM z0 hw2 zn (Rle_refl _)) as (t1 & t2 & t3). split; [exact t1|]. split; [|split].
    + eapply Rle_trans; [exact t2|]. assert (3815 / 1000 / 1000000 <= / IZR (2 ^ 18) + / 1000000000). { change (IZR (2 ^ 18)) with 262144. lra. } change (IZR (2 ^ 18)) with 262144. lra.
    + intros exl. rewrite ez, exl. replace (real mn - real mn) with 0 by ring. replace (rnd 0) with 0 by (symmetry; apply round_0; apply valid_rnd_N). rewrite Rmult_0_l. replace (rnd 0) with 0 by (symmetry; apply round_0; apply valid_rnd_N).
      unfold to_time. rewrite Rplus_0_r. replace (rnd (/ 2)) with (/ 2). { apply Zfloor_imp. cbn. lra. } symmetry. destruct fhalf_real as [_ ehf]. rewrite <- ehf. apply rnd_id. apply format_real.
    + intros exh. apply t3. unfold w. rewrite exh. fold D. field. lra.
  - intros i j x x' y y' hi hj ex ex' ey ey' hxx. destruct (each i hi) as (x1 & y1 & a1 & ix & b1 & c1). destruct (each j hj) as (x2 & y2 & a2 & ix' & b2 & c2). rewrite ex in a1. injection a1 as <-. rewrite ex' in a2. injection a2 as <-. rewrite ey in b1. injection b1 as <-. rewrite ey' in b2. injection b2 as <-.
    destruct (inl x ix) as [fx bx]. destruct (val x ad fx fad ead bx) as (_ & ez & _ & _ & er). destruct (inl x' ix') as [fx' bx']. destruct (val x' ad fx' fad ead bx') as (_ & ez' & _ & _ & er').
    rewrite er in c1. rewrite er' in c2. injection c1 as <-. injection c2 as <-. apply to_time_le. rewrite ez, ez'. apply rnd_le. apply Rmult_le_compat_r; [exact f0|]. apply rnd_le. lra.
Qed.
(** equal samples *)
Lemma zero_value (x : f64) : finite x -> real x = 0 -> exists s, x = B754_zero s.
Proof.
  intros f r. destruct x as [s|s| |s m k h]; try discriminate f; [exists s; reflexivity|]. exfalso. unfold real in r. cbn [B2R] in r. apply eq_0_F2R in r. destruct s; discriminate r.
Qed.
Lemma sub_self (x y : f64) : finite x -> finite y -> real x = real y -> exists s, fsub x y = B754_zero s.
Proof.
  intros fx fy e. assert (d0 : real x - real y = 0) by lra. destruct (fsub_ok x y fx fy) as (f & r & _); [rewrite d0, Rabs_R0; apply bpow_ge_0|]. apply zero_value; [exact f|]. rewrite r, d0. apply round_0. apply valid_rnd_N.
Qed.
Lemma no_round (y : f64) (w : f64) : is_finite w = false -> cheap_round64 (fmul y w) = None.
Proof.
  intros h. unfold cheap_round64, time_of_f64. assert (e : is_finite (fadd fhalf (fmul y w)) = false); [|rewrite e; reflexivity].
  assert (e : is_finite (fmul y w) = false) by (destruct y, w; try discriminate h; reflexivity). destruct (fmul y w) as [s|s| |s m k p]; try discriminate e; reflexivity.
Qed.
Lemma div_zero (v : f64) s : finite v -> is_finite (fdiv v (B754_zero s)) = false.
Proof. intros f. destruct v; try discriminate f; reflexivity. Qed.
Lemma scale_equal a size max out : (1 <= size <= length a)%nat -> (0 <= max < 2 ^ 32)%Z -> Forall finite (firstn size a) -> (forall x y, In x (firstn size a) -> In y (firstn size a) -> real x = real y) -> scale_to_times64 a size max out = None.
Proof.
  intros hn hM hf heq. destruct (range_ok a size hn hf) as (mn & mx & e & fmn & fmx & [smn _] & [gmx _]). unfold scale_to_times64. rewrite e. cbn [bind]. destruct (sub_self mx mn fmx fmn (heq _ _ gmx smn)) as [s ->].
  destruct (f_of_Z_exact max ltac:(lia)) as [fM _]. pose proof (div_zero _ s fM) as nf. set (w := fdiv _ _) in *. unfold for_. destruct size as [|n]; [lia|]. rewrite Nat.sub_0_r. cbn [for_from]. destruct (aget a 0) as [x|]; [|reflexivity]. cbn [bind]. rewrite no_round by exact nf. reflexivity.
Qed.
Lemma range_near a n : (1 <= n <= length a)%nat -> Forall finite (firstn n a) ->
  exists mn mx r, samples_range64 a n = Some (mn, mx, r) /\ smallest (firstn n a) mn /\ greatest (firstn n a) mx /\
    (real mx - real mn <= IZR (2 ^ 1000) -> finite r /\ Rabs (real r - (real mx - real mn)) <= u * (real mx - real mn)).
Proof.
  intros hn hf. destruct (range_ok a n hn hf) as (mn & mx & e & fmn & fmx & smn & gmx). exists mn, mx, (fsub mx mn). split; [exact e|]. split; [exact smn|]. split; [exact gmx|]. intros h.
  assert (h0 : real mn <= real mx). { destruct smn as [i1 _], gmx as [_ m2]. rewrite Forall_forall in m2. apply m2. exact i1. } rewrite (IZR_pow2 1000) in h by lia. assert (B 1000 <= B 1022) by (apply bpow_le; lia).
  destruct (fsub_ok mx mn fmx fmn) as (f & _ & k & hk & ek); [rewrite Rabs_right; lra|]. split; [exact f|]. rewrite ek. replace ((real mx - real mn) * (1 + k) - (real mx - real mn)) with (k * (real mx - real mn)) by ring. rewrite Rabs_mult, (Rabs_right (real mx - real mn)) by lra. apply Rmult_le_compat_r; lra.
Qed.
