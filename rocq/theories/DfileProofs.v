(** Proofs about the samples of WAV files *)
From Coq Require Import ZArith Reals List Bool Lia Lra.
From Flocq Require Import Core BinarySingleNaN Relative.
From Verif Require Import Base DblModel DblSpec DblProofs Dbl2Proofs DfileModel DfileSpec FileModel FileSpec FileUseSpec FileProofs File2Proofs FileUseProofs.
Import ListNotations.
Open Scope R_scope.

Notation fexp32 := (FLT_exp (-149) 24).
Notation rnd32 := (round radix2 fexp32 ZnearestE).
Lemma fexp32_eq : SpecFloat.fexp 24 128 = fexp32. Proof. reflexivity. Qed.
Lemma single_format r : single r <-> generic_format radix2 fexp32 r.
Proof.
  split.
  - intros (m & e & hm & he & ->). apply generic_format_FLT. apply (FLT_spec _ _ _ _ (Float radix2 m e)); [reflexivity|exact hm|exact he].
  - intros h. apply FLT_format_generic in h; [|apply prec32]. destruct h as [[m e] h1 h2 h3]. exists m, e. splits; [exact h2|exact h3|exact h1].
Qed.

(** ** The bits *)
Lemma sign_compare s m e : (0 <= m)%Z -> match Rcompare (F2R (Float radix2 (cond_Zopp s m) e)) 0 with Eq => s | Lt => true | Gt => false end = s.
Proof.
  intros h. destruct (Z.eq_dec m 0) as [->|n].
  - replace (cond_Zopp s 0) with 0%Z by (destruct s; reflexivity). rewrite F2R_0, Rcompare_Eq by reflexivity. reflexivity.
  - destruct s; cbn [cond_Zopp].
    + rewrite Rcompare_Lt; [reflexivity|]. apply F2R_lt_0. cbn. lia.
    + rewrite Rcompare_Gt; [reflexivity|]. apply F2R_gt_0. cbn. lia.
Qed.
Lemma cond_abs s m : (0 <= m)%Z -> Z.abs (cond_Zopp s m) = m. Proof. destruct s; cbn; lia. Qed.
Lemma make_ok s m e : (0 <= m < 2 ^ 53)%Z -> (-1074 <= e <= 971)%Z ->
  let y := binary_normalize 53 1024 prec64 emax64 mode_NE (cond_Zopp s m) e s in
  finite y /\ real y = F2R (Float radix2 (cond_Zopp s m) e) /\ Bsign y = s.
Proof.
  intros hm he y. pose proof (binary_normalize_correct 53 1024 prec64 emax64 mode_NE (cond_Zopp s m) e s) as p. cbv zeta in p. fold y in p. rewrite sign_compare in p by lia.
  change (F2R {| Fnum := cond_Zopp s m; Fexp := e |}) with (IZR (cond_Zopp s m) * B e) in *. assert (ha : (Z.abs (cond_Zopp s m) < 2 ^ 53)%Z) by (rewrite cond_abs; lia).
  rewrite fexp64_eq in p. change (round_mode mode_NE) with ZnearestE in p. rewrite (round_generic _ _ _ _ (format_FLT_make _ e ha (proj1 he))) in p.
  rewrite Rlt_bool_true in p; [splits; apply p|]. rewrite Rabs_mult, <- abs_IZR, (Rabs_pos_eq (B e)) by apply bpow_ge_0.
  apply Rlt_le_trans with (B 53 * B e); [apply Rmult_lt_compat_r; [apply bpow_gt_0|]; apply (IZR_lt _ (2 ^ 53)), ha|]. rewrite <- bpow_plus. apply bpow_le. lia.
Qed.
Lemma bounded32 m e : SpecFloat.bounded 24 128 m e = true ->
  ((2 ^ 23 <= Z.pos m < 2 ^ 24)%Z /\ (-149 <= e <= 104)%Z) \/ ((Z.pos m < 2 ^ 23)%Z /\ e = (-149)%Z).
Proof.
  intros h. apply andb_prop in h. destruct h as [h1 h2]. apply Z.leb_le in h2. apply Zeq_bool_eq in h1. rewrite Zpos_digits2_pos in h1. rewrite fexp32_eq in h1.
  unfold FLT_exp in h1. pose proof (Zdigits_correct radix2 (Z.pos m)) as d. set (k := Zdigits radix2 (Z.pos m)) in *. change (Z.abs (Z.pos m)) with (Z.pos m) in d. change (radix_val radix2) with 2%Z in d.
  destruct (Z_lt_le_dec k 24) as [hk|hk].
  - right. split; [|lia]. eapply Z.lt_le_trans; [apply d|]. apply Z.pow_le_mono_r; lia.
  - left. assert (k = 24)%Z by lia. rewrite H in d. change (24 - 1)%Z with 23%Z in d. lia.
Qed.
Lemma sign_bits s r : (0 <= r < 2 ^ 31)%Z -> (2 ^ 31 <=? sign_bit s + r)%Z = s /\ ((sign_bit s + r) mod 2 ^ 31 = r)%Z /\ ((sign_bit s + r) mod 2 ^ 23 = r mod 2 ^ 23)%Z.
Proof.
  intros h. destruct s; cbn [sign_bit].
  - splits.
    + apply Z.leb_le. lia.
    + replace (2 ^ 31 + r)%Z with (r + 1 * 2 ^ 31)%Z by lia. rewrite Z.mod_add by lia. apply Z.mod_small. lia.
    + replace (2 ^ 31 + r)%Z with (r + 2 ^ 8 * 2 ^ 23)%Z by lia. rewrite Z.mod_add by lia. reflexivity.
  - cbn [Z.add]. splits; [apply Z.leb_gt; lia|apply Z.mod_small; lia|reflexivity].
Qed.
Lemma field_bits f m : (0 <= m < 2 ^ 23)%Z -> (0 <= f < 256)%Z -> (0 <= f * 2 ^ 23 + m < 2 ^ 31)%Z /\ ((f * 2 ^ 23 + m) / 2 ^ 23 = f)%Z /\ ((f * 2 ^ 23 + m) mod 2 ^ 23 = m)%Z.
Proof.
  intros hm hf. splits; [lia|lia| |].
  - rewrite Z.add_comm, Z.div_add by lia. rewrite Z.div_small by lia. reflexivity.
  - rewrite Z.add_comm, Z.mod_add by lia. apply Z.mod_small. lia.
Qed.
Lemma widen_fields s f m : (0 <= m < 2 ^ 23)%Z -> (0 <= f < 256)%Z -> widen32 (sign_bit s + (f * 2 ^ 23 + m)) =
  let make := fun m e => binary_normalize 53 1024 prec64 emax64 mode_NE (cond_Zopp s m) e s in
  if (f =? 255)%Z then if (m =? 0)%Z then B754_infinity s else B754_nan else if (f =? 0)%Z then make m (-149)%Z else make (m + 2 ^ 23)%Z (f - 150)%Z.
Proof.
  intros hm hf. destruct (field_bits f m hm hf) as (h1 & h2 & h3). destruct (sign_bits s _ h1) as (e1 & e2 & e3). unfold widen32. rewrite e1, e2, e3, h2, h3. reflexivity.
Qed.
Definition same_number (y : f32) (z : f64) : Prop :=
  match y with
  | B754_infinity s => z = B754_infinity s
  | B754_nan => z = B754_nan
  | _ => finite z /\ real z = B2R y /\ Bsign z = Bsign y
  end.
Lemma widen_bits (y : f32) : same_number y (widen32 (float_bits y)).
Proof.
  destruct y as [s|s| |s m e b]; cbn [same_number float_bits].
  - replace (sign_bit s) with (sign_bit s + (0 * 2 ^ 23 + 0))%Z by lia. rewrite widen_fields by lia. cbv zeta. destruct (make_ok s 0 (-149)) as (h1 & h2 & h3); [lia|lia|].
    splits; [exact h1| |exact h3]. etransitivity; [exact h2|]. replace (cond_Zopp s 0) with 0%Z by (destruct s; reflexivity). rewrite F2R_0. reflexivity.
  - replace (255 * 2 ^ 23)%Z with (255 * 2 ^ 23 + 0)%Z by lia. rewrite widen_fields by lia. reflexivity.
  - change (255 * 2 ^ 23 + 2 ^ 22)%Z with (sign_bit false + (255 * 2 ^ 23 + 2 ^ 22))%Z. rewrite widen_fields by lia. reflexivity.
  - destruct (bounded32 m e b) as [[hm he]|[hm he]].
    + rewrite (proj2 (Z.leb_le _ _)) by lia. rewrite widen_fields by lia. cbv zeta. rewrite (proj2 (Z.eqb_neq (e + 150) 255)), (proj2 (Z.eqb_neq (e + 150) 0)) by lia.
      replace (Z.pos m - 2 ^ 23 + 2 ^ 23)%Z with (Z.pos m) by lia. replace (e + 150 - 150)%Z with e by lia. apply (make_ok s (Z.pos m) e); lia.
    + rewrite (proj2 (Z.leb_gt _ _)) by lia. replace (Z.pos m) with (0 * 2 ^ 23 + Z.pos m)%Z by lia. rewrite widen_fields by lia. cbv zeta. cbn [Z.eqb Z.mul Z.add]. subst e. apply (make_ok s (Z.pos m) (-149)); lia.
Qed.
Lemma bits_range (y : f32) : (0 <= float_bits y < Base.two32)%Z.
Proof.
  unfold Base.two32. destruct y as [s|s| |s m e b]; cbn [float_bits].
  - destruct s; cbn [sign_bit]; lia.
  - destruct s; cbn [sign_bit]; lia.
  - lia.
  - destruct (bounded32 m e b) as [[hm he]|[hm he]]; [rewrite (proj2 (Z.leb_le _ _)) by lia|rewrite (proj2 (Z.leb_gt _ _)) by lia]; destruct s; cbn [sign_bit]; lia.
Qed.
Lemma narrow_range x : (0 <= narrow32 x < Base.two32)%Z. Proof. apply bits_range. Qed.

(** ** Rounding *)
Lemma max_single : generic_format radix2 fexp32 single_max.
Proof.
  apply single_format. exists (2 ^ 24 - 1)%Z, 104%Z. splits; [lia|lia|]. unfold single_max. change 128%Z with (24 + 104)%Z at 1. rewrite bpow_plus, minus_IZR. change (IZR (2 ^ 24)) with (B 24). ring.
Qed.
Lemma max_pos : 0 < single_max.
Proof. unfold single_max. pose proof (bpow_lt radix2 104 128 ltac:(lia)). lra. Qed.
Lemma round_small x : Rabs x < B 128 - B 103 -> Rabs (rnd32 x) < B 128.
Proof.
  intros h. rewrite <- round_NE_abs by typeclasses eauto. set (a := Rabs x) in *. assert (a0 : 0 <= a) by apply Rabs_pos. pose proof max_pos as mp.
  assert (r0 : 0 <= rnd32 a). { rewrite <- (round_0 radix2 fexp32 ZnearestE). apply round_le; [typeclasses eauto|typeclasses eauto|exact a0]. }
  assert (mx : single_max < B 128). { unfold single_max. pose proof (bpow_gt_0 radix2 104). lra. }
  destruct (Rle_lt_dec a single_max) as [c|c].
  - apply Rle_lt_trans with single_max; [|exact mx]. rewrite <- (round_generic radix2 fexp32 ZnearestE single_max max_single) at 1. apply round_le; [typeclasses eauto|typeclasses eauto|exact c].
  - destruct (round_N_pt radix2 fexp32 (fun z => negb (Z.even z)) a) as [_ n]. specialize (n _ max_single). fold ZnearestE in n.
    unfold single_max in *. pose proof (Rle_abs (rnd32 a - a)) as la. rewrite (Rabs_minus_sym (B 128 - B 104) a), (Rabs_pos_eq (a - (B 128 - B 104))) in n by lra. change 104%Z with (1 + 103)%Z in *. rewrite bpow_plus in n. change (B 1) with 2 in n. lra.
Qed.
Lemma round_middle : rnd32 (B 128 - B 103) = B 128.
Proof.
  assert (e : B 128 - B 103 = (IZR (2 ^ 25 - 1) / 2) * B 104).
  { change 128%Z with (24 + 104)%Z. change 104%Z with (1 + 103)%Z. rewrite !bpow_plus, minus_IZR. change (IZR (2 ^ 25)) with (2 * B 24). change (B 1) with 2. field. }
  assert (m : mag radix2 (B 128 - B 103) = 128%Z :> Z).
  { apply mag_unique_pos. pose proof (bpow_lt radix2 103 128 ltac:(lia)). change (128 - 1)%Z with 127%Z. pose proof (bpow_lt radix2 103 127 ltac:(lia)) as l. pose proof (bpow_gt_0 radix2 103).
    change 128%Z with (1 + 127)%Z. rewrite bpow_plus. change (B 1) with 2. lra. }
  assert (c : cexp radix2 fexp32 (B 128 - B 103) = 104%Z). { unfold cexp. rewrite m. reflexivity. }
  unfold round, scaled_mantissa. rewrite c, e, Rmult_assoc, <- bpow_plus. change (B (104 + - (104))) with 1. rewrite Rmult_1_r.
  assert (z : ZnearestE (IZR (2 ^ 25 - 1) / 2) = (2 ^ 24)%Z).
  { assert (f : Zfloor (IZR (2 ^ 25 - 1) / 2) = (2 ^ 24 - 1)%Z). { apply Zfloor_imp. split; [change (IZR (2 ^ 24 - 1) <= IZR (2 ^ 25 - 1) / 2); rewrite !minus_IZR|]; cbn; lra. }
    assert (cl : Zceil (IZR (2 ^ 25 - 1) / 2) = (2 ^ 24)%Z). { apply Zceil_imp. cbn. lra. }
    unfold Znearest. rewrite f, cl, Rcompare_Eq; [reflexivity|]. cbn. lra. }
  rewrite z. unfold F2R. cbn [Fnum Fexp]. change (IZR (2 ^ 24)) with (B 24). rewrite <- bpow_plus. reflexivity.
Qed.
Lemma round_large x : B 128 - B 103 <= Rabs x -> B 128 <= Rabs (rnd32 x).
Proof.
  intros h. rewrite <- round_NE_abs by typeclasses eauto. rewrite <- round_middle at 1. apply round_le; [typeclasses eauto|typeclasses eauto|exact h].
Qed.
Lemma real_sign s m e b : real (B754_finite s m e b) = F2R (Float radix2 (cond_Zopp s (Z.pos m)) e). Proof. reflexivity. Qed.
Lemma to_float_ok x : finite x -> Rabs (real x) < B 128 - B 103 -> is_finite (to_float x) = true /\ B2R (to_float x) = rnd32 (real x) /\ Bsign (to_float x) = Bsign x.
Proof.
  intros f h. destruct x as [s|s| |s m e b]; try discriminate f.
  - cbn. splits; [reflexivity| |reflexivity]. change (real (B754_zero s)) with 0. rewrite round_0 by typeclasses eauto. reflexivity.
  - cbn [to_float]. pose proof (binary_normalize_correct 24 128 prec32 emax32 mode_NE (cond_Zopp s (Z.pos m)) e s) as p. cbv zeta in p. rewrite sign_compare in p by lia.
    rewrite real_sign in h. rewrite real_sign. rewrite fexp32_eq in p. change (round_mode mode_NE) with ZnearestE in p. rewrite Rlt_bool_true in p by (apply round_small; exact h). splits; apply p.
Qed.
Lemma to_float_large x : finite x -> B 128 - B 103 <= Rabs (real x) -> to_float x = B754_infinity (Bsign x).
Proof.
  intros f h. destruct x as [s|s| |s m e b]; try discriminate f.
  - exfalso. change (real (B754_zero s)) with 0 in h. rewrite Rabs_R0 in h. pose proof (bpow_lt radix2 103 128 ltac:(lia)). lra.
  - cbn [to_float Bsign]. pose proof (binary_normalize_correct 24 128 prec32 emax32 mode_NE (cond_Zopp s (Z.pos m)) e s) as p. cbv zeta in p.
    rewrite real_sign in h. rewrite fexp32_eq in p. change (round_mode mode_NE) with ZnearestE in p. rewrite Rlt_bool_false in p by (apply round_large; exact h).
    apply B2SF_inj. rewrite p. assert (e1 : Rlt_bool (F2R (Float radix2 (cond_Zopp s (Z.pos m)) e)) 0 = s).
    { destruct s; cbn [cond_Zopp]; [apply Rlt_bool_true, F2R_lt_0; cbn; lia|apply Rlt_bool_false, F2R_ge_0; cbn; lia]. }
    rewrite e1. reflexivity.
Qed.
Lemma finite_same (y : f32) z : is_finite y = true -> same_number y z -> finite z /\ real z = B2R y /\ Bsign z = Bsign y.
Proof. destruct y; intros h; try discriminate h; exact (fun p => p). Qed.
Lemma reread_ok x : finite x -> Rabs (real x) < B 128 - B 103 -> finite (reread x) /\ real (reread x) = rnd32 (real x) /\ Bsign (reread x) = Bsign x.
Proof.
  intros f h. destruct (to_float_ok x f h) as (h1 & h2 & h3). destruct (finite_same _ _ h1 (widen_bits (to_float x))) as (g1 & g2 & g3). unfold reread, narrow32. splits; [exact g1|congruence|congruence].
Qed.
Lemma reread_large x : finite x -> B 128 - B 103 <= Rabs (real x) -> reread x = B754_infinity (Bsign x).
Proof. intros f h. unfold reread, narrow32. rewrite (to_float_large x f h). exact (widen_bits (B754_infinity (Bsign x))). Qed.
Lemma reread_infinite s : reread (B754_infinity s) = B754_infinity s.
Proof. exact (widen_bits (B754_infinity s)). Qed.
Lemma reread_nan : reread B754_nan = B754_nan.
Proof. exact (widen_bits B754_nan). Qed.

(** ** What storing does *)
Lemma reread_nearest x : finite x -> Rabs (real x) < B 128 - B 103 -> finite (reread x) /\ nearest_single (real x) (real (reread x)) /\ Bsign (reread x) = Bsign x.
Proof.
  intros f h. destruct (reread_ok x f h) as (h1 & h2 & h3). splits; [exact h1| |exact h3]. rewrite h2.
  destruct (round_N_pt radix2 fexp32 (fun z => negb (Z.even z)) (real x)) as [n1 n2]. split; [apply single_format; exact n1|]. intros z hz. apply n2, single_format, hz.
Qed.
Lemma reread_error x : finite x -> Rabs (real x) < B 128 - B 103 -> Rabs (real (reread x) - real x) <= B (-24) * Rabs (real x) + B (-150).
Proof.
  intros f h. destruct (reread_ok x f h) as (_ & -> & _). destruct (error_N_FLT radix2 (-149) 24 ltac:(lia) (fun z => negb (Z.even z)) (real x)) as (e & t & h1 & h2 & _ & h3).
  fold ZnearestE in h3. rewrite h3. replace (real x * (1 + e) + t - real x) with (e * real x + t) by ring. eapply Rle_trans; [apply Rabs_triang|]. rewrite Rabs_mult.
  change (/ 2) with (B (-1)) in *. rewrite <- bpow_plus in h1, h2. apply Rplus_le_compat; [apply Rmult_le_compat_r; [apply Rabs_pos|exact h1]|exact h2].
Qed.
Lemma max_below : single_max < B 128 - B 103.
Proof. unfold single_max. pose proof (bpow_lt radix2 103 104 ltac:(lia)). lra. Qed.
Lemma reread_exact x : finite x -> single (real x) -> Rabs (real x) <= single_max -> reread x = x.
Proof.
  intros f hs h. pose proof max_below. destruct (reread_ok x f ltac:(lra)) as (h1 & h2 & h3). rewrite (round_generic _ _ _ _ (proj1 (single_format _) hs)) in h2. apply B2R_Bsign_inj; assumption.
Qed.
(** what becomes of a number *)
Lemma reread_cases x : (x = B754_nan /\ reread x = B754_nan) \/
  (finite x /\ Rabs (real x) < B 128 - B 103 /\ finite (reread x) /\ real (reread x) = rnd32 (real x) /\ Bsign (reread x) = Bsign x) \/
  (reread x = B754_infinity (Bsign x) /\ (x = B754_infinity (Bsign x) \/ (finite x /\ B 128 - B 103 <= Rabs (real x)))).
Proof.
  assert (fc : finite x -> (finite x /\ Rabs (real x) < B 128 - B 103 /\ finite (reread x) /\ real (reread x) = rnd32 (real x) /\ Bsign (reread x) = Bsign x) \/
    (reread x = B754_infinity (Bsign x) /\ (x = B754_infinity (Bsign x) \/ (finite x /\ B 128 - B 103 <= Rabs (real x))))).
  { intros f. destruct (Rlt_le_dec (Rabs (real x)) (B 128 - B 103)) as [h|h].
    - left. split; [exact f|]. split; [exact h|]. exact (reread_ok x f h).
    - right. split; [exact (reread_large x f h)|]. right. split; assumption. }
  destruct x as [s|s| |s m e b].
  - right. apply fc. reflexivity.
  - right. right. split; [apply reread_infinite|]. left. reflexivity.
  - left. split; [reflexivity|apply reread_nan].
  - right. apply fc. reflexivity.
Qed.
Lemma reread_again x : reread (reread x) = reread x.
Proof.
  destruct (reread_cases x) as [(-> & e)|[(f & h & f2 & e & s)|(e & _)]].
  - rewrite e. apply reread_nan.
  - apply reread_exact; [exact f2|rewrite e; apply single_format, generic_format_round; typeclasses eauto|]. rewrite e.
    pose proof (round_small (real x) h) as rs. assert (g : generic_format radix2 fexp32 (Rabs (rnd32 (real x)))). { apply generic_format_abs, generic_format_round; typeclasses eauto. }
    (* the number before 2 ^ 128 *)
    assert (p : single_max = pred radix2 fexp32 (B 128)).
    { rewrite pred_eq_pos by apply bpow_ge_0. unfold pred_pos. rewrite mag_bpow. change (128 + 1 - 1)%Z with 128%Z. rewrite Req_bool_true by reflexivity. unfold single_max. f_equal. }
    rewrite p. apply pred_ge_gt; [typeclasses eauto|exact g|apply generic_format_bpow; cbn; lia|exact rs].
  - rewrite e. apply reread_infinite.
Qed.
Lemma reread_bound x r : finite x -> single r -> r <= single_max -> Rabs (real x) <= r -> finite (reread x) /\ Rabs (real (reread x)) <= r.
Proof.
  intros f hs hr h. pose proof max_below. destruct (reread_ok x f ltac:(lra)) as (h1 & h2 & _). split; [exact h1|]. rewrite h2, <- round_NE_abs by typeclasses eauto.
  rewrite <- (round_generic radix2 fexp32 ZnearestE r (proj1 (single_format _) hs)). apply round_le; [typeclasses eauto|typeclasses eauto|exact h].
Qed.
Lemma sign_neg x : finite x -> Bsign x = true -> real x <= 0.
Proof. destruct x as [s|s| |s m e b]; cbn [Bsign]; intros f h; try discriminate f; subst s; [right; reflexivity|]. rewrite real_sign. apply F2R_le_0. cbn. lia. Qed.
Lemma sign_nonneg x : finite x -> Bsign x = false -> 0 <= real x.
Proof. destruct x as [s|s| |s m e b]; cbn [Bsign]; intros f h; try discriminate f; subst s; [right; reflexivity|]. rewrite real_sign. apply F2R_ge_0. cbn. lia. Qed.
Lemma fle_real x y : finite x -> finite y -> fle x y = true <-> real x <= real y.
Proof.
  intros fx fy. unfold fle. rewrite Bleb_correct by assumption. fold (real x) (real y). split; [|apply Rle_bool_true]. intros h. destruct (Rle_bool_spec (real x) (real y)); [assumption|discriminate].
Qed.
Lemma fle_low x : x <> B754_nan -> fle (B754_infinity true) x = true.
Proof. destruct x as [s|[|]| |[|] m e b]; intros h; try reflexivity. contradiction. Qed.
Lemma fle_high x : x <> B754_nan -> fle x (B754_infinity false) = true.
Proof. destruct x as [s|[|]| |[|] m e b]; intros h; try reflexivity; contradiction. Qed.
Lemma fle_not_nan x y : fle x y = true -> x <> B754_nan /\ y <> B754_nan.
Proof. destruct x as [s|s| |s m e b], y as [t|t| |t n f c]; intros h; split; try discriminate; try (destruct s; discriminate h). Qed.
Lemma fle_top x : finite x -> fle (B754_infinity false) x = false.
Proof. destruct x as [s|s| |s m e b]; intros h; try discriminate h; reflexivity. Qed.
Lemma fle_bottom x : finite x -> fle x (B754_infinity true) = false.
Proof. destruct x as [s|s| |s m e b]; intros h; try discriminate h; [reflexivity|destruct s; reflexivity]. Qed.
Lemma reread_not_nan x : x <> B754_nan -> reread x <> B754_nan.
Proof.
  intros h. destruct (reread_cases x) as [(e & _)|[(_ & _ & f & _)|(e & _)]]; [contradiction|intros e; rewrite e in f; discriminate f|rewrite e; discriminate].
Qed.
Lemma reread_order x y : fle x y = true -> fle (reread x) (reread y) = true.
Proof.
  intros h. destruct (fle_not_nan x y h) as [nx ny].
  destruct (reread_cases x) as [(e & _)|[(fx & hx & gx & ex & sx)|(ex & cx)]]; [contradiction| |].
  - destruct (reread_cases y) as [(e & _)|[(fy & hy & gy & ey & sy)|(ey & cy)]]; [contradiction| |].
    + apply fle_real; [assumption|assumption|]. rewrite ex, ey. apply round_le; [typeclasses eauto|typeclasses eauto|]. apply fle_real; assumption.
    + rewrite ey. destruct (Bsign y) eqn:s; [exfalso|apply fle_high, reread_not_nan, nx]. destruct cy as [->|[fy hy]]; [rewrite fle_bottom in h by assumption; discriminate h|].
      apply fle_real in h; [|assumption|assumption]. pose proof (sign_neg y fy s) as n. rewrite Rabs_left1 in hy by exact n. apply Rabs_def2 in hx. lra.
  - rewrite ex. destruct (Bsign x) eqn:s; [apply fle_low, reread_not_nan, ny|].
    assert (ey : reread y = B754_infinity false).
    { destruct (reread_cases y) as [(e & _)|[(fy & hy & gy & ey & sy)|(ey & cy)]]; [contradiction| |].
      - exfalso. destruct cx as [->|[fx hx]]; [rewrite fle_top in h by assumption; discriminate h|]. apply fle_real in h; [|assumption|assumption].
        rewrite Rabs_pos_eq in hx by (apply sign_nonneg; assumption). apply Rabs_def2 in hy. lra.
      - rewrite ey. destruct (Bsign y) eqn:t; [|reflexivity]. exfalso. destruct cx as [->|[fx hx]].
        + destruct cy as [->|[fy hy]]; [discriminate h|]. rewrite fle_top in h by assumption. discriminate h.
        + destruct cy as [->|[fy hy]]; [rewrite fle_bottom in h by assumption; discriminate h|]. apply fle_real in h; [|assumption|assumption].
          pose proof (sign_neg y fy t). pose proof (sign_nonneg x fx s). rewrite Rabs_left1 in hy by assumption. rewrite Rabs_pos_eq in hx by assumption.
          pose proof (bpow_lt radix2 103 128 ltac:(lia)). lra. }
    rewrite ey. reflexivity.
Qed.
Lemma single_1 : single 1. Proof. exists 1%Z, 0%Z. splits; [lia|lia|]. cbn. lra. Qed.
Lemma reread_unit x : finite x -> Rabs (real x) <= 1 -> finite (reread x) /\ Rabs (real (reread x)) <= 1 /\ Rabs (real (reread x) - real x) <= B (-25).
Proof.
  intros f h. assert (m1 : 1 <= single_max). { unfold single_max. change 128%Z with (24 + 104)%Z. rewrite bpow_plus. pose proof (bpow_le radix2 0 104 ltac:(lia)). change (B 0) with 1 in H. change (B 24) with 16777216. lra. }
  destruct (reread_bound x 1 f single_1 m1 h) as [h1 h2]. splits; [exact h1|exact h2|].
  pose proof max_below. destruct (reread_ok x f ltac:(lra)) as (_ & e & _). rewrite e.
  destruct (Rlt_or_le (Rabs (real x)) 1) as [l|g].
  - eapply Rle_trans; [apply error_le_half_ulp; typeclasses eauto|]. destruct (Req_dec (real x) 0) as [z|z].
    + rewrite z, ulp_FLT_0 by typeclasses eauto. change (/ 2) with (B (-1)). rewrite <- bpow_plus. apply bpow_le. lia.
    + rewrite ulp_neq_0 by exact z. change (/ 2) with (B (-1)). rewrite <- bpow_plus. apply bpow_le. unfold cexp. assert (hm : (mag radix2 (real x) <= 0)%Z) by (apply mag_le_bpow; [exact z|exact l]).
      unfold FLT_exp. lia.
  - assert (a : Rabs (real x) = 1) by lra. assert (s : single (real x)). { destruct (Rcase_abs (real x)) as [n|n]; [rewrite Rabs_left in a by exact n|rewrite Rabs_right in a by exact n].
      - exists (-1)%Z, 0%Z. splits; [lia|lia|]. cbn. lra.
      - rewrite a. exact single_1. }
    rewrite (round_generic _ _ _ _ (proj1 (single_format _) s)). rewrite Rminus_diag_eq by reflexivity. rewrite Rabs_R0. apply bpow_ge_0.
Qed.
Lemma file_samples (errno : Z) (header : list Z) (junk : nat -> list Z) (cc : nat) (rate : Z) (blocks : list (list (list f64) * nat)) (frames : list (list (list f64)))
    (before : file) (reads : list (nat * list (list f64))) :
  length header = 40%nat -> (forall k, length (junk k) = k) -> (0 < cc)%nat ->
  Forall2 (fun b fr => (0 < snd b)%nat /\ frames_of cc (fst b) (snd b) fr) blocks frames ->
  (36 + Z.of_nat (length (data_bytes narrow32 (concat frames))) < Base.two32)%Z ->
  f_channels before = cc -> Forall (read_ok f64 cc) reads ->
  exists f0 f1 f2 results, open_write true errno None header cc rate = Some (status_success, Some f0) /\ write_all f64 narrow32 junk f0 blocks = Some (status_success, f1) /\
    open_read (Some (close_write None None f1)) before = Some (status_success, f2) /\
    read_all f64 widen32 f2 reads = Some results /\ reads_expected f64 reread cc (concat frames) reads results.
Proof. exact (round_trip f64 narrow32 widen32 narrow_range errno header junk cc rate blocks frames before reads). Qed.
