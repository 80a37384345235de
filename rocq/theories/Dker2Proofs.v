(** Filter kernels with doubles: the whole computation *)
From Coq Require Import ZArith Reals List Bool Lia Lra Psatz.
From Flocq Require Import Core BinarySingleNaN Mult_error.
From Verif Require Import Base DblModel DblSpec DblProofs Dbl2Proofs DlineProofs KerSpec KerProofs Ker2Proofs KerFejer PiProofs CmodProofs DfftModel DfftSpec DfftProofs DkerModel DkerSpec DkerProofs.
Import ListNotations.
Open Scope R_scope.

(** ** the length *)
Lemma ceil_ok q z : finite q -> IZR z - 1 < real q <= IZR z -> 0 < real q -> (z < 2 ^ 32)%Z -> time_of_ceil q = Some z.
Proof.
  intros fq hq h0 hz. assert (hz0 : (0 < z)%Z) by (apply lt_IZR; lra). unfold time_of_ceil. rewrite fq, trunc_real, Ztrunc_floor by lra.
  assert (hf : (0 <= Zfloor (real q) <= z)%Z). { split; [apply Zfloor_lub; lra|]. apply le_IZR. eapply Rle_trans; [apply Zfloor_lb|]. lra. }
  destruct (f_of_Z_exact (Zfloor (real q))) as [ff ef]; [lia|].
  assert (e : flt (f_of_Z (Zfloor (real q))) q = Rlt_bool (IZR (Zfloor (real q))) (real q)) by (unfold flt; rewrite Bltb_correct by assumption; fold (real q); change (B2R (f_of_Z (Zfloor (real q)))) with (real (f_of_Z (Zfloor (real q)))); rewrite ef; reflexivity).
  rewrite e. replace (if Rlt_bool (IZR (Zfloor (real q))) (real q) then (Zfloor (real q) + 1)%Z else Zfloor (real q)) with z.
  { cbv zeta. destruct (Z.leb_spec 0 z); [|lia]. destruct (Z.ltb_spec z (2 ^ 32)); [|lia]. reflexivity. }
  destruct (Rlt_bool_spec (IZR (Zfloor (real q))) (real q)) as [l|l].
  - assert (Zfloor (real q) = z - 1)%Z; [|lia]. apply Z.le_antisymm; [|apply Zfloor_lub; rewrite minus_IZR; lra]. assert (Zfloor (real q) < z)%Z; [|lia]. apply lt_IZR. lra.
  - pose proof (Zfloor_lb (real q)). assert (hr : real q = IZR (Zfloor (real q))) by lra. apply Z.le_antisymm; [|lia]. assert (z - 1 < Zfloor (real q))%Z; [|lia]. apply lt_IZR. rewrite minus_IZR. lra.
Qed.
Lemma odd_even (z : Z) : (0 <= z)%Z -> (z mod 2 =? 0)%Z = negb (Nat.odd (Z.to_nat z)).
Proof.
  intros h. rewrite <- (Z2Nat.id z h) at 1. generalize (Z.to_nat z) as n. intros n. destruct (Nat.odd n) eqn:e; cbn [negb].
  - apply Nat.odd_spec in e. destruct e as [m ->]. apply Z.eqb_neq. rewrite Nat2Z.inj_add, Nat2Z.inj_mul. change (Z.of_nat 2) with 2%Z. change (Z.of_nat 1) with 1%Z. rewrite Z.add_comm, Z.mul_comm, Z_mod_plus_full. discriminate.
  - assert (k : Nat.even n = true) by (rewrite <- Nat.negb_odd, e; reflexivity). apply Nat.even_spec in k. destruct k as [m ->]. apply Z.eqb_eq. rewrite Nat2Z.inj_mul, Z.mul_comm. apply Z_mod_mult.
Qed.
Lemma length_ok (t : f64) : finite t -> 0 < real t -> 4 / real t <= 4294967295 ->
  exists q len, Rabs (q - 4 / real t) <= u * (4 / real t) /\ least_odd q len /\ ir_length64 t = Some len /\ (real t <= 2 -> (1 < len)%nat).
Proof.
  intros ft h0 h4. set (v := 4 / real t) in *. destruct (f_of_Z_exact 4) as [f4 e4]; [reflexivity|].
  assert (hv : B (-1022) <= v).
  { unfold v. apply Rmult_le_reg_r with (real t); [lra|]. unfold Rdiv. rewrite Rmult_assoc, Rinv_l, Rmult_1_r by lra.
    assert (ht : real t <= B 1024) by (apply Rlt_le; eapply Rle_lt_trans; [apply Rle_abs|]; apply (abs_B2R_lt_emax 53 1024 t)).
    apply Rle_trans with (B (-1022) * B 1024); [apply Rmult_le_compat_l; [apply bpow_ge_0|exact ht]|]. rewrite <- bpow_plus. change (B (-1022 + 1024)) with 4. lra. }
  assert (hv0 : 0 < v) by (pose proof (bpow_gt_0 radix2 (-1022)); lra). assert (b32 : 4294967295 <= B 1022) by (change 4294967295 with (IZR 4294967295); assert (h : B 32 <= B 1022) by (apply bpow_le; lia); change (B 32) with 4294967296 in h; lra).
  destruct (fdiv_fin (f_of_Z 4) t f4) as [fq eq]; [lra|rewrite e4; fold v; rewrite Rabs_pos_eq; lra|]. rewrite e4 in eq. change (IZR 4) with 4 in eq. fold v in eq.
  destruct (rnd_rel_normal v) as (e & he & er); [rewrite Rabs_pos_eq; lra|]. pose proof u_tiny. pose proof u_pos. assert (he' := Rabs_le_inv _ _ he).
  assert (hq0 : 0 < rnd v) by (rewrite er; apply Rmult_lt_0_compat; lra).
  assert (hq1 : rnd v <= IZR 4294967295) by (rewrite <- (rnd_id (IZR 4294967295) (format_IZR 4294967295 ltac:(reflexivity))); apply rnd_le; exact h4).
  set (z := Zceil (rnd v)). assert (hz : IZR z - 1 < rnd v <= IZR z) by (split; [pose proof (Zceil_lb (rnd v)); unfold z; lra|apply Zceil_ub]).
  assert (hz1 : (0 < z <= 4294967295)%Z) by (split; [apply lt_IZR; lra|apply Zceil_glb; exact hq1]).
  exists (rnd v), (Z.to_nat (if (z mod 2 =? 0)%Z then z + 1 else z)%Z). split; [rewrite er; replace (v * (1 + e) - v) with (e * v) by ring; rewrite Rabs_mult, (Rabs_pos_eq v) by lra; apply Rmult_le_compat_r; lra|].
  rewrite (odd_even z) by lia. split; [|split].
  - assert (hzr : IZR z = INR (Z.to_nat z)) by (rewrite INR_IZR_INZ, Z2Nat.id by lia; reflexivity).
    assert (lower : forall n, Nat.odd n = true -> rnd v <= INR n -> (Z.to_nat z <= n)%nat) by (intros n _ hn; assert (IZR z < IZR (Z.of_nat n) + 1) by (rewrite <- INR_IZR_INZ; lra); rewrite <- plus_IZR in *; match goal with k : IZR z < IZR _ |- _ => apply lt_IZR in k end; lia).
    destruct (Nat.odd (Z.to_nat z)) eqn:eo; cbn [negb].
    + split; [exact eo|]. split; [rewrite <- hzr; apply hz|exact lower].
    + rewrite Z2Nat.inj_add by lia. change (Z.to_nat 1) with 1%nat. split; [rewrite Nat.add_1_r, Nat.odd_succ, <- Nat.negb_odd, eo; reflexivity|]. split; [rewrite plus_INR, <- hzr; cbn [INR]; lra|].
      intros n ho hn. pose proof (lower n ho hn). destruct (Nat.eq_dec (Z.to_nat z) n) as [<-|ne]; [congruence|lia].
  - unfold ir_length64. rewrite (ceil_ok (fdiv (f_of_Z 4) t) z fq); try (rewrite eq; lra); [|change (2 ^ 32)%Z with 4294967296%Z; lia]. cbn [bind]. rewrite (odd_even z) by lia. f_equal. f_equal.
    destruct (Nat.odd (Z.to_nat z)) eqn:eo; cbn [negb]; [reflexivity|]. apply u32_small. unfold Base.two32. split; [lia|]. assert (z <> 4294967295)%Z; [|lia]. intros ->. rewrite <- Nat.negb_even in eo. apply negb_false_iff in eo.
    assert (k := odd_even 4294967295 ltac:(lia)). rewrite <- Nat.negb_even, eo in k. discriminate.
  - intros ht. assert (hv2 : 2 <= v). { unfold v. apply Rmult_le_reg_r with (real t); [lra|]. unfold Rdiv. rewrite Rmult_assoc, Rinv_l by lra. lra. }
    assert (hq2 : IZR 2 <= rnd v) by (rewrite <- (rnd_id (IZR 2) (format_IZR 2 ltac:(reflexivity))); apply rnd_le; exact hv2). assert (2 <= z)%Z by (apply le_IZR; lra). destruct (negb _); lia.
Qed.
Lemma length_odd (t : f64) len : ir_length64 t = Some len -> Nat.odd len = true /\ (Z.of_nat len < Base.two32)%Z.
Proof.
  unfold ir_length64, time_of_ceil. destruct (is_finite _); [|discriminate]. cbv zeta. match goal with |- context [(0 <=? ?x)%Z] => set (z := x) end. destruct (Z.leb_spec 0 z); [|discriminate]. destruct (Z.ltb_spec z (2 ^ 32)) as [l|l]; [|discriminate].
  cbn [andb bind]. change (2 ^ 32)%Z with Base.two32 in l. intros e. apply (f_equal (fun o => match o with Some x => x | None => O end)) in e. subst len. rewrite (odd_even z) by lia. destruct (Nat.odd (Z.to_nat z)) eqn:eo; cbn [negb]; [split; [exact eo|lia]|].
  assert (hz : (z <> Base.two32 - 1)%Z). { intros k. assert (j := odd_even z ltac:(lia)). rewrite eo, k in j. discriminate. }
  rewrite u32_small by lia. split; [|lia]. rewrite Z2Nat.inj_add by lia. change (Z.to_nat 1) with 1%nat. rewrite Nat.add_1_r, Nat.odd_succ, <- Nat.negb_odd, eo. reflexivity.
Qed.

(** ** sums *)
Lemma real_sum_rsumf l : real_sum l = rsumf (length l) (fun i => real (nth i l fzero)).
Proof.
  induction l as [|a l IH]; [reflexivity|]. cbn [real_sum length]. rewrite rsumf_shift. cbn [nth]. rewrite IH. reflexivity.
Qed.
Lemma real_abs_sum_le l m : Forall (fun x => Rabs (real x) <= m) l -> real_abs_sum l <= INR (length l) * m.
Proof. induction 1 as [|a l h _ IH]; [cbn; lra|]. cbn [real_abs_sum length]. rewrite S_INR. lra. Qed.
Lemma rsumf_abs n f : Rabs (rsumf n f) <= rsumf n (fun i => Rabs (f i)).
Proof. induction n as [|n IH]; cbn [rsumf]; [rewrite Rabs_R0; lra|]. eapply Rle_trans; [apply Rabs_triang|]. lra. Qed.
Lemma rsumf_near n f g e : (forall i, (i < n)%nat -> Rabs (f i - g i) <= e) -> Rabs (rsumf n f - rsumf n g) <= INR n * e.
Proof. intros h. rewrite <- rsumf_minus. eapply Rle_trans; [apply rsumf_abs|]. rewrite <- rsumf_const. apply rsumf_le. exact h. Qed.
Lemma Forall_nth_all {A} (P : A -> Prop) (l : list A) d : (forall i, (i < length l)%nat -> P (nth i l d)) -> Forall P l.
Proof. intros h. apply Forall_forall. intros x hx. apply In_nth with (d := d) in hx. destruct hx as (i & hi & <-). apply h. exact hi. Qed.

Lemma nth_map_any {A C} (f : A -> C) l i d e : (i < length l)%nat -> nth i (map f l) d = f (nth i l e).
Proof. intros h. rewrite nth_indep with (d' := f e) by (rewrite map_length; exact h). apply map_nth. Qed.
Lemma nth_map_seq {A} (f : nat -> A) len i d : (i < len)%nat -> nth i (map f (seq 0 len)) d = f i.
Proof. intros h. rewrite nth_map_any with (e := 0%nat) by (rewrite seq_length; exact h). rewrite seq_nth by exact h. reflexivity. Qed.

(** ** one sample *)
Lemma double_ok c : finite c -> 0 <= real c <= 1 / 2 -> finite (fmul (f_of_Z 2) c) /\ real (fmul (f_of_Z 2) c) = 2 * real c.
Proof.
  intros fc hc. destruct (f_of_Z_exact 2) as [f2 e2]; [reflexivity|]. pose proof big_10. assert (B 1018 <= B 1022) by (apply bpow_le; lia).
  destruct (fmul_fin (f_of_Z 2) c f2 fc) as [f e]; [rewrite e2, Rabs_pos_eq; lra|]. split; [exact f|]. rewrite e, e2. change (IZR 2) with 2. replace (2 * real c) with (real c * B 1) by (change (B 1) with 2; ring). apply rnd_id.
  apply mult_bpow_pos_exact_FLT; [apply format_real|lia].
Qed.
Lemma center_ok m i : (Z.of_nat m < 2 ^ 40)%Z -> (Z.of_nat i < 2 ^ 40)%Z -> let x := fsub (f_of_nat i) (fdiv (fsub (f_of_nat (2 * m + 1)) (f_of_Z 1)) (f_of_Z 2)) in finite x /\ real x = INR i - INR m.
Proof.
  intros hm hi x. change (2 ^ 40)%Z with 1099511627776%Z in *. destruct (f_of_nat_ok (2 * m + 1)) as [f1 e1]; [change (2 ^ 53)%Z with 9007199254740992%Z; lia|]. destruct (f_of_Z_exact 1) as [f2 e2]; [reflexivity|]. destruct (f_of_Z_exact 2) as [f3 e3]; [reflexivity|]. destruct (f_of_nat_ok i) as [f4 e4]; [change (2 ^ 53)%Z with 9007199254740992%Z; lia|].
  assert (bm : 0 <= INR m <= 1099511627776) by (split; [apply pos_INR|rewrite INR_IZR_INZ; apply IZR_le; lia]). assert (bi : 0 <= INR i <= 1099511627776) by (split; [apply pos_INR|rewrite INR_IZR_INZ; apply IZR_le; lia]).
  pose proof big_10. assert (b22 : B 1018 <= B 1022) by (apply bpow_le; lia).
  assert (e1' : real (f_of_nat (2 * m + 1)) = 2 * INR m + 1) by (rewrite e1, plus_INR, mult_INR; cbn [INR]; lra).
  destruct (fsub_ok (f_of_nat (2 * m + 1)) (f_of_Z 1) f1 f2) as (f5 & e5 & _); [rewrite e1', e2; apply Rabs_le; lra|].
  assert (e5' : real (fsub (f_of_nat (2 * m + 1)) (f_of_Z 1)) = 2 * INR m) by (rewrite e5, e1', e2; replace (2 * INR m + 1 - 1) with (IZR (2 * Z.of_nat m)) by (rewrite mult_IZR, <- INR_IZR_INZ; lra); rewrite rnd_id by (apply format_IZR; change (2 ^ 53)%Z with 9007199254740992%Z; lia); rewrite mult_IZR, <- INR_IZR_INZ; lra).
  destruct (fdiv_fin (fsub (f_of_nat (2 * m + 1)) (f_of_Z 1)) (f_of_Z 2) f5) as [f6 e6]; [rewrite e3; lra|rewrite e5', e3; apply Rabs_le; lra|].
  assert (e6' : real (fdiv (fsub (f_of_nat (2 * m + 1)) (f_of_Z 1)) (f_of_Z 2)) = INR m) by (rewrite e6, e5', e3; replace (2 * INR m / 2) with (IZR (Z.of_nat m)) by (rewrite <- INR_IZR_INZ; lra); rewrite rnd_id by (apply format_IZR; change (2 ^ 53)%Z with 9007199254740992%Z; lia); rewrite <- INR_IZR_INZ; lra).
  destruct (fsub_ok (f_of_nat i) _ f4 f6) as (f7 & e7 & _); [rewrite e4, e6'; apply Rabs_le; lra|]. split; [exact f7|]. unfold x. rewrite e7, e4, e6'.
  replace (INR i - INR m) with (IZR (Z.of_nat i - Z.of_nat m)) by (rewrite minus_IZR, <- !INR_IZR_INZ; lra). apply rnd_id. apply format_IZR. change (2 ^ 53)%Z with 9007199254740992%Z. lia.
Qed.
Section Kernel.
Variable d : R.
Variable fcos fsin : f64 -> f64.
Hypothesis libm : libm_near d fcos fsin.
Hypothesis hd : 0 <= d <= / 1000000.
Definition raw64 (c : f64) (len i : nat) : f64 := fmul (blackman64 fcos i len) (sinc64 fsin (fmul (fmul (f_of_Z 2) c) (fsub (f_of_nat i) (fdiv (fsub (f_of_nat len) (f_of_Z 1)) (f_of_Z 2))))).
Lemma sinc_le X s : is_sinc X s -> Rabs s <= 1.
Proof.
  intros [h0 h1]. destruct (Req_EM_T X 0) as [e|n]; [rewrite (h0 e), Rabs_R1; lra|]. rewrite (h1 n). apply sinr_le. intros z. apply Rmult_integral in z. pose proof PI_range. destruct z; lra.
Qed.
Lemma tap_near c len i x : finite c -> 0 <= real c <= 1 / 2 -> Nat.odd len = true -> (1 < len)%nat -> (Z.of_nat len <= 2 ^ 36)%Z -> (i < len)%nat -> raw_sample (real c) len i x ->
  finite (raw64 c len i) /\ Rabs (real (raw64 c len i) - x) <= 3 * d + 27 * u /\ Rabs x <= 1.
Proof.
  intros fc hc ho hl hl2 hi (s & hs & ->). change (42 / 100 - 5 / 10 * cos (2 * PI * (INR i / (INR len - 1))) + 8 / 100 * cos (4 * PI * (INR i / (INR len - 1)))) with (black i len).
  pose proof u_tiny as hu. pose proof u_pos as hu0. pose proof (sinc_le _ _ hs) as s1. pose proof (black_range i len) as b1.
  destruct (blackman_near d fcos fsin libm hd i len ltac:(lia) hl2 hi) as [f1 e1].
  assert (hsx : finite (sinc64 fsin (fmul (fmul (f_of_Z 2) c) (fsub (f_of_nat i) (fdiv (fsub (f_of_nat len) (f_of_Z 1)) (f_of_Z 2))))) /\
    Rabs (real (sinc64 fsin (fmul (fmul (f_of_Z 2) c) (fsub (f_of_nat i) (fdiv (fsub (f_of_nat len) (f_of_Z 1)) (f_of_Z 2))))) - s) <= d + 7 * u).
  { apply Nat.odd_spec in ho. destruct ho as [m ->]. change (2 ^ 36)%Z with 68719476736%Z in hl2. destruct (center_ok m i) as [f2 e2]; [change (2 ^ 40)%Z with 1099511627776%Z; lia|change (2 ^ 40)%Z with 1099511627776%Z; lia|]. destruct (double_ok c fc hc) as [f3 e3].
    set (k := fsub (f_of_nat i) _) in *. replace (2 * real c * (INR i - (INR (2 * m + 1) - 1) / 2)) with (real (fmul (f_of_Z 2) c) * real k) in hs by (rewrite e3, e2, plus_INR, mult_INR; cbn [INR]; lra).
    assert (hX : Rabs (real (fmul (f_of_Z 2) c) * real k) <= B 36).
    { rewrite e3, e2. rewrite <- (Rmult_1_l (B 36)). apply Rabs_prod_le; [rewrite Rabs_pos_eq; lra|]. rewrite <- IZR_pow2 by lia. change (2 ^ 36)%Z with 68719476736%Z. rewrite !INR_IZR_INZ, <- minus_IZR, <- abs_IZR. apply IZR_le. lia. }
    destruct (fmul_err (fmul (f_of_Z 2) c) k f3 f2) as (f4 & e4 & _); [eapply Rle_trans; [exact hX|apply bpow_le; lia]|].
    exact (sinc_near d fcos fsin libm hd _ _ s f4 e4 hX hs). }
  destruct hsx as [f5 e5]. pose proof (near_bound _ _ _ _ e1 b1) as m1. pose proof (near_bound _ _ _ _ e5 s1) as m2.
  unfold raw64. set (sn := sinc64 fsin _) in *. destruct (fmul_near _ _ _ _ _ _ _ _ f1 f5 e1 e5 m1 s1 m2) as [f6 e6].
  { assert ((1 + (d + 17 * u)) * (1 + (d + 7 * u)) <= 2 * 2) by (apply Rmult_le_compat; lra). lra. }
  split; [exact f6|]. split; [|rewrite <- (Rmult_1_l 1); apply Rabs_prod_le; assumption]. eapply Rle_trans; [exact e6|].
  assert (hdd : d * d <= / 1000000 * d) by (apply Rmult_le_compat_r; lra). assert (hd0 : d * u <= / 1000000 * u) by (apply Rmult_le_compat_r; lra). assert (hu2 : u * u <= / 1000000 * u) by (apply Rmult_le_compat_r; lra).
  assert (p : (1 + (d + 17 * u)) * (1 + (d + 7 * u)) <= 11 / 10). { assert ((1 + (d + 17 * u)) * (1 + (d + 7 * u)) <= (102 / 100) * (102 / 100)) by (apply Rmult_le_compat; lra). lra. }
  assert (u * ((1 + (d + 17 * u)) * (1 + (d + 7 * u))) <= u * (11 / 10)) by (apply Rmult_le_compat_l; lra).
  replace ((1 + (d + 17 * u)) * (d + 7 * u)) with (d + 7 * u + (d * d + 24 * (d * u) + 119 * (u * u))) by ring. lra.
Qed.

Lemma error_facts len : Nat.odd len = true -> (1 < len)%nat -> kernel_error d len <= 1 / 2 ->
  3 <= INR len /\ (Z.of_nat len <= 2 ^ 36)%Z /\ 0 <= INR len * INR len * u /\ 3 * (INR len * u) <= INR len * INR len * u /\ 9 * u <= INR len * INR len * u /\ 3 * (3 * d + 27 * u) <= INR len * (3 * d + 27 * u).
Proof.
  intros ho hl he. pose proof u_pos as hu. assert (h3 : 3 <= INR len). { apply Nat.odd_spec in ho. destruct ho as [m ->]. replace 3 with (INR 3) by (cbn [INR]; lra). apply le_INR. lia. }
  assert (h1 : 3 * u <= INR len * u) by (apply Rmult_le_compat_r; lra). assert (h2 : 3 * (INR len * u) <= INR len * (INR len * u)) by (apply Rmult_le_compat_r; lra).
  assert (h4 : 3 * (3 * d + 27 * u) <= INR len * (3 * d + 27 * u)) by (apply Rmult_le_compat_r; lra).
  unfold kernel_error in he. splits; try lra. destruct (Z_le_gt_dec (Z.of_nat len) (2 ^ 36)) as [l|l]; [exact l|exfalso].
  assert (hb : IZR (2 ^ 36) <= INR len) by (rewrite INR_IZR_INZ; apply IZR_le; lia). change (2 ^ 36)%Z with 68719476736%Z in hb. assert (hsq : 68719476736 * 68719476736 <= INR len * INR len) by (apply Rmult_le_compat; lra).
  pose proof u_num as hn. change (2 ^ 53)%Z with 9007199254740992%Z in hn. assert (68719476736 * 68719476736 * u <= INR len * INR len * u) by (apply Rmult_le_compat_r; lra). lra.
Qed.
Variable junk : nat -> list f64.
Hypothesis hj : forall n, length (junk n) = n.
Lemma low_near c t len raw : ir_length64 t = Some len -> (1 < len)%nat -> kernel_error d len <= 1 / 2 -> finite c -> 0 <= real c <= 1 / 2 -> raw_kernel (real c) len raw ->
  exists h, lp_hp_ir64 fcos fsin junk c t false = Some h /\ length h = len /\ lp_hp_ir64 fcos fsin junk c t true = spectral_inversion64 h len /\
    (forall i, (i < len)%nat -> finite (nth i h fzero) /\ Rabs (real (nth i h fzero) - nth i raw 0 / gain raw) <= 3 * kernel_error d len /\ Rabs (real (nth i h fzero)) <= 3) /\
    Rabs (gain64 h - 1) <= 28 * (INR len * INR len * u).
Proof.
  intros hlen hl he fc hc hr. destruct (length_odd t len hlen) as [ho _]. destruct (error_facts len ho hl he) as (n3 & n36 & q1 & q2 & q3 & q4).
  assert (hS : 1 <= gain raw) by (apply (range_gain (real c) len raw); auto; lra). pose proof u_tiny as hu. pose proof u_pos as hu0.
  unfold lp_hp_ir64. rewrite hlen. cbn [bind].
  destruct (loop_set (fun i => raw64 c len i) (junk len) len fzero (eq_sym (hj len))) as (ir & e1 & l1 & h1). unfold raw64 in e1. cbv zeta. rewrite e1. cbn [bind]. clear e1.
  destruct hr as [lr hr]. assert (tap : forall i, (i < len)%nat -> finite (nth i ir fzero) /\ Rabs (real (nth i ir fzero) - nth i raw 0) <= 3 * d + 27 * u /\ Rabs (nth i raw 0) <= 1) by (intros i hi; rewrite h1 by exact hi; apply tap_near; auto).
  assert (tap2 : forall i, (i < len)%nat -> Rabs (real (nth i ir fzero)) <= 11 / 10) by (intros i hi; destruct (tap i hi) as (_ & a & b); eapply Rle_trans; [apply (near_bound _ _ _ _ a b)|]; lra).
  assert (fir : firstn len ir = ir) by (rewrite <- l1; apply firstn_all).
  assert (habs : real_abs_sum ir <= INR len * (11 / 10)) by (rewrite <- l1; apply real_abs_sum_le; apply Forall_nth_all with (d := fzero); intros i hi; apply tap2; lia).
  assert (hN : INR len <= 68719476736) by (rewrite INR_IZR_INZ; apply IZR_le; exact n36).
  destruct (sum64_general ir len) as (G & eG & fG & hG).
  { lia. } { change (2 ^ 50)%Z with 1125899906842624%Z. lra. } { rewrite fir. apply Forall_nth_all with (d := fzero). intros i hi. apply tap. lia. } { rewrite fir. eapply Rle_trans; [exact habs|]. assert (h : B 70 <= B 1000) by (apply bpow_le; lia). change (B 70) with 1180591620717411303424 in h. lra. }
  rewrite eG. cbn [bind]. rewrite fir in hG.
  assert (hG1 : Rabs (real G - real_sum ir) <= 132 / 10 * (INR len * INR len * u)).
  { eapply Rle_trans; [exact hG|]. assert (0 <= 12 * INR len * u) by (apply Rmult_le_pos; lra). assert (12 * INR len * u * real_abs_sum ir <= 12 * INR len * u * (INR len * (11 / 10))) by (apply Rmult_le_compat_l; assumption). lra. }
  assert (hsum : Rabs (real_sum ir - gain raw) <= INR len * (3 * d + 27 * u)). { rewrite real_sum_rsumf, l1. unfold gain. rewrite lr. apply rsumf_near. intros i hi. apply tap. exact hi. }
  set (E := kernel_error d len) in *. assert (hE : E = INR len * (3 * d + 27 * u) + 14 * (INR len * INR len * u)) by (unfold E, kernel_error; ring).
  assert (hGS : Rabs (real G - gain raw) <= E) by (eapply Rle_trans; [apply (via _ _ _ _ _ hG1 hsum)|]; lra).
  assert (G2 : 1 / 2 <= real G) by (apply Rabs_le_inv in hGS; lra). assert (iG : 0 < / real G <= 2) by (split; [apply Rinv_0_lt_compat; lra|]; rewrite <- (Rinv_inv 2); apply Rinv_le_contravar; lra).
  assert (iS : 0 < / gain raw <= 1) by (split; [apply Rinv_0_lt_compat; lra|]; rewrite <- Rinv_1; apply Rinv_le_contravar; lra).
  assert (quo : forall i, (i < len)%nat -> finite (fdiv (nth i ir fzero) G) /\ Rabs (real (fdiv (nth i ir fzero) G) - real (nth i ir fzero) * / real G) <= 23 / 10 * u /\ Rabs (real (nth i ir fzero) * / real G) <= 22 / 10).
  { intros i hi. destruct (tap i hi) as (f & a & b). assert (hq : Rabs (real (nth i ir fzero) * / real G) <= 22 / 10). { replace (22 / 10) with (11 / 10 * 2) by lra. apply Rabs_prod_le; [apply tap2; exact hi|rewrite Rabs_pos_eq; lra]. }
    destruct (fdiv_near (nth i ir fzero) G f) as [f2 e2]; [lra|unfold Rdiv; lra|]. unfold Rdiv in e2 at 1 2. splits; auto. eapply Rle_trans; [exact e2|]. assert (u * Rabs (real (nth i ir fzero) * / real G) <= u * (22 / 10)) by (apply Rmult_le_compat_l; lra). lra. }
  destruct (loop_mod (fun x => fdiv x G) ir len fzero (eq_sym l1)) as (h & e2 & l2 & h2). rewrite e2. cbn [bind]. exists h. split; [reflexivity|]. split; [exact l2|]. split; [reflexivity|]. split.
  - intros i hi. rewrite h2 by exact hi. destruct (quo i hi) as (f & a & b). destruct (tap i hi) as (_ & p & q). split; [exact f|]. split; [|pose proof (near_bound _ _ _ _ a b); lra].
    assert (k1 : Rabs (real (nth i ir fzero) * / real G - nth i raw 0 / gain raw) <= (3 * d + 27 * u) * 2 + E * 2).
    { replace (real (nth i ir fzero) * / real G - nth i raw 0 / gain raw) with ((real (nth i ir fzero) - nth i raw 0) * / real G + (gain raw - real G) * (nth i raw 0 * / gain raw * / real G)) by (field; split; lra).
      eapply Rle_trans; [apply Rabs_triang|]. apply Rplus_le_compat; apply Rabs_prod_le; auto; [rewrite Rabs_pos_eq; lra|rewrite Rabs_minus_sym; exact hGS|]. replace 2 with (1 * 1 * 2) by ring. apply Rabs_prod_le; [apply Rabs_prod_le; [exact q|rewrite Rabs_pos_eq; lra]|rewrite Rabs_pos_eq; lra]. }
    eapply Rle_trans; [apply (via _ _ _ _ _ a k1)|]. lra.
  - unfold gain64. rewrite real_sum_rsumf, l2.
    assert (k1 : Rabs (rsumf len (fun i => real (nth i h fzero)) - rsumf len (fun i => real (nth i ir fzero) * / real G)) <= INR len * (23 / 10 * u)) by (apply rsumf_near; intros i hi; rewrite h2 by exact hi; apply quo; exact hi).
    rewrite rsumf_scal_r in k1. assert (k0 : rsumf len (fun i => real (nth i ir fzero)) = real_sum ir) by (rewrite real_sum_rsumf, l1; reflexivity). rewrite k0 in k1.
    assert (k2 : Rabs (real_sum ir * / real G - 1) <= 132 / 10 * (INR len * INR len * u) * 2). { replace (real_sum ir * / real G - 1) with ((real_sum ir - real G) * / real G) by (field; lra). apply Rabs_prod_le; [rewrite Rabs_minus_sym; exact hG1|rewrite Rabs_pos_eq; lra]. }
    eapply Rle_trans; [apply (via _ _ _ _ _ k1 k2)|]. lra.
Qed.
Lemma negate_ok x : finite x -> Rabs (real x) <= 3 -> finite (fmul x (f_of_Z (-1))) /\ real (fmul x (f_of_Z (-1))) = - real x.
Proof.
  intros fx hx. destruct (f_of_Z_exact (-1)) as [f1 e1]; [reflexivity|]. pose proof big_10. assert (B 1018 <= B 1022) by (apply bpow_le; lia). replace (- real x) with (real x * -1) by ring.
  destruct (fmul_fin x (f_of_Z (-1)) fx f1) as [f e]; [rewrite e1; replace (real x * -1) with (- real x) by ring; rewrite Rabs_Ropp; lra|]. split; [exact f|]. rewrite e, e1. apply rnd_id. replace (real x * -1) with (- real x) by ring. apply generic_format_opp, format_real.
Qed.
Lemma inversion_near (h : list f64) len : length h = len -> (0 < len)%nat -> (Z.of_nat len < Base.two32)%Z -> (forall i, (i < len)%nat -> finite (nth i h fzero) /\ Rabs (real (nth i h fzero)) <= 3) ->
  exists k, spectral_inversion64 h len = Some k /\ length k = len /\ forall i, (i < len)%nat -> finite (nth i k fzero) /\ Rabs (real (nth i k fzero) - (impulse len i - real (nth i h fzero))) <= 4 * u * impulse len i.
Proof.
  intros lh hl hl2 hf. unfold spectral_inversion64. destruct (loop_mod (fun x => fmul x (f_of_Z (-1))) h len fzero (eq_sym lh)) as (a' & e & l1 & h1). rewrite e. cbn [bind].
  rewrite center_nat by auto. set (c := ((len - 1) / 2)%nat) in *. pose proof (half_lt len hl) as hc. fold c in hc.
  unfold aget. rewrite (nth_error_of_nth a' c fzero) by lia. cbn [bind]. destruct (aset_some a' c (fadd (nth c a' fzero) (f_of_Z 1))) as [b eb]; [lia|]. exists b. split; [exact eb|].
  rewrite (aset_length _ _ _ _ eb). split; [exact l1|]. intros i hi. pose proof (aset_get _ _ _ _ i eb) as hg. unfold impulse. fold c. destruct (hf i hi) as [fi bi]. destruct (negate_ok _ fi bi) as [fn en].
  destruct (Nat.eqb_spec i c) as [->|ne].
  - rewrite (nth_error_nth_eq b c _ fzero hg). rewrite h1 by lia. destruct (f_of_Z_exact 1) as [g1 g2]; [reflexivity|]. apply Rabs_le_inv in bi.
    destruct (fadd_near (fmul (nth c h fzero) (f_of_Z (-1))) (f_of_Z 1) (- real (nth c h fzero)) 1 0 0 4) as [f2 e2]; auto; try (rewrite ?en, ?g2; apply Rabs_le; lra). split; [exact f2|]. replace (1 - real (nth c h fzero)) with (- real (nth c h fzero) + 1) by ring. lra.
  - rewrite (nth_error_of_nth a' i fzero) in hg by lia. rewrite (nth_error_nth_eq b i _ fzero hg). rewrite h1 by lia. split; [exact fn|]. rewrite en. replace (- real (nth i h fzero) - (0 - real (nth i h fzero))) with 0 by ring. rewrite Rabs_R0. lra.
Qed.
Lemma raw_exists fc len : exists raw, raw_kernel fc len raw.
Proof.
  exists (map (fun i => black i len * KerModel.sinc (2 * fc * (INR i - (INR len - 1) / 2))) (seq 0 len)). split; [rewrite map_length, seq_length; reflexivity|]. intros i hi.
  rewrite nth_map_seq by exact hi.
  exists (KerModel.sinc (2 * fc * (INR i - (INR len - 1) / 2))). split; [|reflexivity]. unfold KerModel.sinc. split; intros h; destruct (Req_EM_T 0 _); congruence.
Qed.
Lemma kernel_near (hp : bool) c t len : ir_length64 t = Some len -> (1 < len)%nat -> kernel_error d len <= 1 / 2 -> finite c -> 0 <= real c <= 1 / 2 ->
  exists h k, lp_hp_ir64 fcos fsin junk c t hp = Some h /\ (if hp then high_pass_kernel (real c) len k else low_pass_kernel (real c) len k) /\
    near_kernel (4 * kernel_error d len) h k /\ Rabs (gain64 h - (if hp then 0 else 1)) <= 30 * INR len * INR len * u.
Proof.
  intros hlen hl he fc hc. destruct (raw_exists (real c) len) as [raw hr]. destruct (length_odd t len hlen) as [ho h32]. destruct (error_facts len ho hl he) as (n3 & n36 & q1 & q2 & q3 & q4).
  pose proof u_pos as hu. assert (hE : 126 * u <= kernel_error d len) by (unfold kernel_error; lra).
  assert (hS : 1 <= gain raw) by (apply (range_gain (real c) len raw); auto; lra). destruct (low_near c t len raw hlen hl he fc hc hr) as (h & e1 & l1 & e2 & tap & hg).
  set (lp := map (fun x => x / gain raw) raw). assert (lr : length raw = len) by apply hr. assert (ll : length lp = len) by (unfold lp; rewrite map_length; exact lr).
  assert (hlp : forall i, (i < len)%nat -> nth i lp 0 = nth i raw 0 / gain raw) by (intros i hi; exact (nth_map_any (fun x => x / gain raw) raw i 0 0 ltac:(lia))).
  assert (low : low_pass_kernel (real c) len lp) by (split; [exact ll|]; exists raw; splits; auto; lra).
  destruct hp.
  - destruct (inversion_near h len l1 ltac:(lia) h32) as (g & e3 & l3 & inv); [intros i hi; destruct (tap i hi) as (a & _ & b); auto|].
    exists g, (map (fun i => impulse len i - nth i lp 0) (seq 0 len)). assert (hh : forall i, (i < len)%nat -> nth i (map (fun i => impulse len i - nth i lp 0) (seq 0 len)) 0 = impulse len i - nth i lp 0).
    { intros i hi. exact (nth_map_seq (fun i => impulse len i - nth i lp 0) len i 0 hi). }
    assert (lk : length (map (fun i => impulse len i - nth i lp 0) (seq 0 len)) = len) by (rewrite map_length, seq_length; reflexivity). set (k := map (fun i => impulse len i - nth i lp 0) (seq 0 len)) in *.
    assert (imp : forall i, 0 <= impulse len i <= 1) by (intros i; unfold impulse; destruct (_ =? _)%nat; lra).
    split; [rewrite e2; exact e3|]. split; [split; [exact lk|]; exists lp; auto|]. split.
    + split; [lia|]. rewrite lk. intros i hi. destruct (inv i hi) as [f a]. split; [exact f|]. rewrite hh, hlp by exact hi. destruct (tap i hi) as (_ & b & _).
      assert (b' : Rabs ((impulse len i - real (nth i h fzero)) - (impulse len i - nth i raw 0 / gain raw)) <= 3 * kernel_error d len) by (replace ((impulse len i - real (nth i h fzero)) - (impulse len i - nth i raw 0 / gain raw)) with (- (real (nth i h fzero) - nth i raw 0 / gain raw)) by ring; rewrite Rabs_Ropp; exact b).
      eapply Rle_trans; [apply (via _ _ _ _ _ a b')|]. pose proof (imp i). assert (4 * u * impulse len i <= 4 * u * 1) by (apply Rmult_le_compat_l; lra). lra.
    + assert (k1 : Rabs (gain64 g - (1 - gain64 h)) <= 4 * u).
      { unfold gain64. rewrite !real_sum_rsumf, l1, l3. rewrite <- (impulse_sum len) at 1 by lia. rewrite <- !rsumf_minus. eapply Rle_trans; [apply rsumf_abs|]. rewrite <- (Rmult_1_r (4 * u)). rewrite <- (impulse_sum len) by lia. rewrite <- rsumf_scal. apply rsumf_le. intros i hi. apply inv. exact hi. }
      assert (k2 : Rabs (1 - gain64 h - 0) <= 28 * (INR len * INR len * u)) by (rewrite Rminus_0_r, Rabs_minus_sym; exact hg). eapply Rle_trans; [apply (via _ _ _ _ _ k1 k2)|]. lra.
  - exists h, lp. splits; auto; [|lra]. split; [lia|]. rewrite ll. intros i hi. destruct (tap i hi) as (f & a & _). split; [exact f|]. rewrite hlp by exact hi. lra.
Qed.
End Kernel.
