(** Proofs about DarrModel.v: setting the gain *)
From Coq Require Import ZArith Reals List Bool Lia Lra Psatz.
From Flocq Require Import Core BinarySingleNaN.
From Verif Require Import Base DblModel DblSpec DblProofs Dbl2Proofs DlineModel DlineProofs DstatModel DstatProofs ArrModel Scale2Proofs DarrModel DarrSpec DarrProofs Darr2Proofs.
Import ListNotations.
Open Scope R_scope.

Lemma abs_m1 : Rabs (-1) = 1. Proof. rewrite Rabs_left; lra. Qed.
Lemma abs_value x : finite x -> Rabs (real x) < IZR (2 ^ 32) -> let y := if flt x fzero then fmul (f_of_Z (-1)) x else x in finite y /\ real y = Rabs (real x).
Proof.
  intros fx hb. assert (z0 : finite fzero /\ real fzero = 0) by (split; reflexivity). destruct z0 as [fz rz]. rewrite (flt_ok x fzero fx fz), rz. destruct (f_of_Z_exact (-1) eq_refl) as [f1 r1].
  assert (l : IZR (2 ^ 32) <= B 1022) by (change (IZR (2 ^ 32)) with (B 32); apply bpow_le; lia).
  destruct (Rlt_bool_spec (real x) 0) as [h|h]; cbv zeta.
  - destruct (fmul_fin (f_of_Z (-1)) x f1 fx) as [f2 r2]; [rewrite r1, Rabs_mult, abs_m1; lra|]. split; [exact f2|]. rewrite r2, r1. rewrite Rabs_left by exact h.
    replace (-1 * real x) with (- real x) by ring. rewrite rnd_opp, rnd_id by apply format_real. reflexivity.
  - split; [exact fx|]. rewrite Rabs_pos_eq by exact h. reflexivity.
Qed.
Lemma floor_bounds r : IZR (Zfloor r) <= r < IZR (Zfloor r) + 1.
Proof. split; [apply Zfloor_lb|apply Zfloor_ub]. Qed.
Lemma peak_prefix l n : (n <= length l)%nat -> Forall (fun x => finite x /\ Rabs (real x) < IZR (2 ^ 32)) (firstn n l) ->
  exists m, samples_absolute_max64 l n = Some m /\ whole_peak (firstn n l) m /\ (m < 2 ^ 32)%Z.
Proof.
  intros hn hf. unfold samples_absolute_max64.
  destruct (for_inv (fun k m => whole_peak (firstn k l) m /\ (m < 2 ^ 32)%Z) (fun i max => x <- aget l i ;; temp <- time_of_f64 (if flt x fzero then fmul (f_of_Z (-1)) x else x) ;; Some (if (max <? temp)%Z then temp else max)) 0 n 0%Z) as (m & e & h).
  - lia.
  - split; [|lia]. split; [lia|]. split; [constructor|]. now left.
  - intros k m hk ((m0 & hall & hex) & ml). destruct (get_some l k ltac:(lia)) as [x ex]. rewrite Forall_forall in hf. destruct (hf x (in_front l n k x ltac:(lia) ex)) as [fx bx].
    destruct (abs_value x fx bx) as [fy ry]. set (y := if flt x fzero then _ else _) in *. pose proof (floor_bounds (Rabs (real x))) as fb. set (z := Zfloor (Rabs (real x))) in *.
    assert (zr : (0 <= z < 2 ^ 32)%Z). { split; [apply Zfloor_lub; apply Rabs_pos|]. apply lt_IZR. lra. }
    assert (ez : time_of_f64 y = Some z) by (apply time_of_f64_some; [exact fy|exact zr|rewrite ry; exact fb]). unfold aget. rewrite ex. cbn [bind]. fold y. rewrite ez. cbn [bind]. eexists. split; [reflexivity|].
    rewrite (firstn_snoc _ _ _ ex). destruct (Z.ltb_spec m z) as [lt|ge].
    + split; [|lia]. split; [lia|]. split.
      * apply Forall_app. split; [|constructor; [lra|constructor]]. eapply Forall_impl; [|exact hall]. cbv beta. intros a ha. apply IZR_lt in lt. lra.
      * right. apply Exists_app. right. constructor. lra.
    + split; [|lia]. split; [lia|]. split.
      * apply Forall_app. split; [exact hall|]. constructor; [|constructor]. apply IZR_le in ge. lra.
      * destruct hex as [->|hex]; [now left|]. right. apply Exists_app. now left.
  - exists m. tauto.
Qed.
Lemma peak_unique l m m' : whole_peak l m -> whole_peak l m' -> m = m'.
Proof.
  assert (le : forall a b, whole_peak l a -> whole_peak l b -> (a <= b)%Z).
  { intros a b (a0 & _ & [->|ea]) (b0 & hb & _); [exact b0|]. apply Exists_exists in ea. destruct ea as (x & hx & h). rewrite Forall_forall in hb. specialize (hb x hx). cbv beta in hb. apply Z.lt_succ_r. apply lt_IZR. rewrite succ_IZR. lra. }
  intros h h'. apply Z.le_antisymm; auto.
Qed.
Lemma peak_found l n m : (n <= length l)%nat -> Forall (fun x => finite x /\ Rabs (real x) < IZR (2 ^ 32)) (firstn n l) -> whole_peak (firstn n l) m -> samples_absolute_max64 l n = Some m /\ (m < 2 ^ 32)%Z.
Proof. intros hn hf hp. destruct (peak_prefix l n hn hf) as (m' & e & hp' & ml). rewrite (peak_unique _ _ _ hp hp'). auto. Qed.

Lemma eqb_zero x : finite x -> Beqb fzero x = Req_bool 0 (real x).
Proof. intros fx. apply (Beqb_correct 53 1024 fzero x eq_refl fx). Qed.

(** the factor *)
Lemma correction_near m amp : (1 <= m < 2 ^ 32)%Z -> finite amp -> B (-900) <= Rabs (real amp) <= B 900 ->
  let d := fdiv (f_of_Z m) amp in let c := fadd (f_of_Z 1) (fdiv (fsub (f_of_Z 1) d) d) in
  finite c /\ Rabs (real c - real amp / IZR m) <= 6 * u * (1 + Rabs (real amp / IZR m)).
Proof.
  intros hm fa ha d c. pose proof u_pos as up. assert (u8 : u <= / 1024) by (pose proof (u_bound 1024 ltac:(lia) ltac:(intro; discriminate)); lra). destruct one_real as [f1 r1]. destruct (f_of_Z_exact m ltac:(lia)) as [fm rm].
  assert (m1 : 1 <= IZR m) by (apply IZR_le; lia). assert (m2 : IZR m <= B 32) by (change (B 32) with (IZR (2 ^ 32)); apply IZR_le; lia).
  assert (a0 : real amp <> 0). { intros z. rewrite z, Rabs_R0 in ha. pose proof (bpow_gt_0 radix2 (-900)). lra. } assert (ap : 0 < Rabs (real amp)) by now apply Rabs_pos_lt.
  set (g := real amp / IZR m). set (d0 := IZR m / real amp). assert (gd : g = / d0) by (unfold g, d0; field; split; [exact a0|lra]).
  assert (d0a : Rabs d0 = IZR m / Rabs (real amp)) by (unfold d0, Rdiv; rewrite Rabs_mult, Rabs_inv, (Rabs_pos_eq (IZR m)) by lra; reflexivity).
  assert (d0l : B (-900) <= Rabs d0). { rewrite d0a. apply Rmult_le_reg_r with (Rabs (real amp)); [exact ap|]. unfold Rdiv. rewrite Rmult_assoc, Rinv_l, Rmult_1_r by lra. apply Rle_trans with (B (-900) * B 900); [apply Rmult_le_compat_l; [apply bpow_ge_0|lra]|]. rewrite <- bpow_plus. change (B (-900 + 900)) with 1. lra. }
  assert (d0h : Rabs d0 <= B 932). { rewrite d0a. apply Rmult_le_reg_r with (Rabs (real amp)); [exact ap|]. unfold Rdiv. rewrite Rmult_assoc, Rinv_l, Rmult_1_r by lra. apply Rle_trans with (B 932 * B (-900)); [rewrite <- bpow_plus; change (932 + -900)%Z with 32%Z; lra|]. apply Rmult_le_compat_l; [apply bpow_ge_0|lra]. }
  assert (b1 : B 932 <= B 1000) by (apply bpow_le; lia). pose proof big_1000 as b2. assert (b3 : 1 <= B 932) by (change 1 with (B 0); apply bpow_le; lia). assert (b4 : B (-1022) <= B (-900)) by (apply bpow_le; lia).
  destruct (fdiv_fin (f_of_Z m) amp fm a0) as [fd rd]; [rewrite rm; fold d0; lra|]. fold d in fd, rd. rewrite rm in rd. fold d0 in rd.
  destruct (rnd_rel_normal d0) as (e1 & he1 & re1); [lra|]. rewrite re1 in rd.
  assert (D0 : d0 <> 0). { intros z. rewrite z, Rabs_R0 in d0l. pose proof (bpow_gt_0 radix2 (-900)). lra. }
  pose proof (Rabs_le_inv _ _ he1) as he1'. assert (dn : real d <> 0). { rewrite rd. apply Rmult_integral_contrapositive_currified; [exact D0|lra]. }
  assert (da : Rabs (real d) = Rabs d0 * (1 + e1)) by (rewrite rd, Rabs_mult, (Rabs_pos_eq (1 + e1)) by lra; reflexivity).
  assert (d0p : 0 < Rabs d0) by now apply Rabs_pos_lt.
  assert (dh : Rabs (real d) <= 2 * B 932) by (rewrite da; apply Rle_trans with (Rabs d0 * 2); [apply Rmult_le_compat_l; lra|lra]). assert (dl : / 2 * B (-900) <= Rabs (real d)) by (rewrite da; apply Rle_trans with (Rabs d0 * / 2); [lra|apply Rmult_le_compat_l; lra]).
  destruct (fsub_ok (f_of_Z 1) d f1 fd) as (fs & _ & e2 & he2 & rs). { rewrite r1. apply Rabs_le_inv in dh. apply Rabs_le. lra. } rewrite r1 in rs. set (s := fsub (f_of_Z 1) d) in *.
  pose proof (Rabs_le_inv _ _ he2) as he2'.
  set (w := / real d). assert (wa : Rabs w = / Rabs (real d)) by (unfold w; apply Rabs_inv). assert (dp : 0 < Rabs (real d)) by now apply Rabs_pos_lt.
  assert (wh : Rabs w <= 2 * B 900). { rewrite wa. apply Rmult_le_reg_r with (Rabs (real d)); [exact dp|]. rewrite Rinv_l by lra. apply Rle_trans with (2 * B 900 * (/ 2 * B (-900))); [|apply Rmult_le_compat_l; [pose proof (bpow_ge_0 radix2 900); lra|exact dl]].
    replace (2 * B 900 * (/ 2 * B (-900))) with (B 900 * B (-900)) by field. rewrite <- bpow_plus. change (B (900 + -900)) with 1. lra. }
  assert (b5 : B 900 <= B 932) by (apply bpow_le; lia). assert (sq : real s / real d = (w - 1) * (1 + e2)) by (rewrite rs; unfold w; field; exact dn).
  assert (w1 : Rabs (w - 1) <= Rabs w + 1). { eapply Rle_trans; [apply Rabs_triang|]. rewrite Rabs_Ropp, Rabs_R1. lra. }
  assert (sa : Rabs (real s / real d) <= (Rabs w + 1) * (1 + u)). { rewrite sq, Rabs_mult, (Rabs_pos_eq (1 + e2)) by lra. apply Rmult_le_compat; try lra. apply Rabs_pos. }
  assert (wp : 0 <= Rabs w) by apply Rabs_pos. assert (ws : Rabs w * u <= Rabs w * / 1024) by (apply Rmult_le_compat_l; lra).
  destruct (fdiv_fin s d fs dn) as [fq rq]; [lra|]. set (q := fdiv s d) in *. pose proof (rnd_any (real s / real d)) as eq. rewrite <- rq in eq.
  assert (z1 : B (-1022) <= u * u). { rewrite u_val, <- bpow_plus. apply bpow_le. lia. }
  assert (uu : u * u <= u * / 1024) by (apply Rmult_le_compat_l; lra). assert (wu : 0 <= Rabs w * u) by (apply Rmult_le_pos; lra). assert (wuu : Rabs w * (u * u) <= Rabs w * (u * / 1024)) by (apply Rmult_le_compat_l; lra).
  assert (dq : Rabs (real q - (w - 1)) <= (Rabs w + 1) * (2 * u + 3 * (u * u))).
  { replace (real q - (w - 1)) with ((real q - real s / real d) + (w - 1) * e2) by (rewrite sq; ring). eapply Rle_trans; [apply Rabs_triang|]. assert (x1 : Rabs ((w - 1) * e2) <= (Rabs w + 1) * u) by (apply Rabs_prod_le; assumption).
    assert (u * Rabs (real s / real d) <= u * ((Rabs w + 1) * (1 + u))) by (apply Rmult_le_compat_l; lra). assert (0 <= Rabs w * (u * u)) by (apply Rmult_le_pos; [exact wp|apply Rmult_le_pos; lra]). assert (0 <= u * u) by (apply Rmult_le_pos; lra). lra. }
  assert (qs : Rabs (1 + real q) <= Rabs w + (Rabs w + 1) * (3 * u)). { replace (1 + real q) with (w + (real q - (w - 1))) by ring. eapply Rle_trans; [apply Rabs_triang|]. lra. }
  destruct (fadd_ok (f_of_Z 1) q f1 fq) as (fc & _ & e3 & he3 & rc); [rewrite r1; lra|]. fold c in fc, rc. rewrite r1 in rc. split; [exact fc|].
  assert (gw : Rabs (w - g) <= 2 * u * Rabs g). { unfold w. rewrite gd, rd. replace (/ (d0 * (1 + e1)) - / d0) with (/ d0 * (- e1 / (1 + e1))) by (field; split; [exact D0|lra]). rewrite Rabs_mult, Rmult_comm. apply Rmult_le_compat_r; [apply Rabs_pos|].
    unfold Rdiv. rewrite Rabs_mult, Rabs_Ropp, Rabs_inv, (Rabs_pos_eq (1 + e1)) by lra. apply Rmult_le_reg_r with (1 + e1); [lra|]. rewrite Rmult_assoc, Rinv_l, Rmult_1_r by lra. pose proof (Rmult_le_compat_l u (- / 1024) e1 ltac:(lra) ltac:(lra)). lra. }
  assert (wg : Rabs w <= Rabs g * (1 + 2 * u)). { replace w with ((w - g) + g) by ring. eapply Rle_trans; [apply Rabs_triang|]. lra. }
  rewrite rc. replace ((1 + real q) * (1 + e3) - g) with ((real q - (w - 1)) + (w - g) + (1 + real q) * e3) by ring.
  eapply Rle_trans; [apply Rabs_triang|]. eapply Rle_trans; [apply Rplus_le_compat_r, Rabs_triang|].
  assert (x3 : Rabs ((1 + real q) * e3) <= (Rabs w + (Rabs w + 1) * (3 * u)) * u) by (apply Rabs_prod_le; assumption).
  pose proof (Rabs_pos g) as gp. assert (gu : 0 <= Rabs g * u) by (apply Rmult_le_pos; lra). assert (g2 : 0 <= Rabs g * u * u <= Rabs g * u * / 1024) by (split; [apply Rmult_le_pos; lra|apply Rmult_le_compat_l; lra]). assert (g3 : 0 <= Rabs g * u * u * u <= Rabs g * u * u * 1) by (split; [apply Rmult_le_pos; lra|apply Rmult_le_compat_l; lra]).
  pose proof (Rmult_le_compat_r u _ _ ltac:(lra) wg) as wu1. pose proof (Rmult_le_compat_r u _ _ ltac:(lra) wu1) as wu2. lra.
Qed.
Lemma gain_product x c g E : finite x -> finite c -> 0 <= E <= 1 -> Rabs (real c - g) <= E * (1 + Rabs g) -> Rabs (real x) * (1 + Rabs g) <= B 1000 ->
  finite (fmul x c) /\ Rabs (real (fmul x c) - real x * g) <= (E + 2 * u) * (Rabs (real x) + Rabs (real x * g)) + B (-1022).
Proof.
  intros fx fc hE h hb. pose proof u_pos. pose proof u_16. set (Z := Rabs (real x) * (1 + Rabs g)) in *. assert (zr : Rabs (real x) + Rabs (real x * g) = Z) by (unfold Z; rewrite Rabs_mult; ring). rewrite zr.
  assert (d : Rabs (real x * real c - real x * g) <= E * Z). { rewrite <- Rmult_minus_distr_l, Rabs_mult. unfold Z. pose proof (Rabs_pos (real x)). nra. }
  assert (gz : Rabs (real x * g) <= Z) by (rewrite <- zr; pose proof (Rabs_pos (real x)); lra).
  assert (b : Rabs (real x * real c) <= 2 * Z). { replace (real x * real c) with ((real x * real c - real x * g) + real x * g) by ring. eapply Rle_trans; [apply Rabs_triang|]. pose proof (Rabs_pos (real x * g)). nra. }
  pose proof big_1000. pose proof (bpow_gt_0 radix2 1000). destruct (fmul_fin x c fx fc) as [f1 r1]; [lra|]. split; [exact f1|]. pose proof (rnd_any (real x * real c)) as r. rewrite <- r1 in r.
  replace (real (fmul x c) - real x * g) with ((real (fmul x c) - real x * real c) + (real x * real c - real x * g)) by ring. eapply Rle_trans; [apply Rabs_triang|]. nra.
Qed.
Lemma gain_run l n amp m : (n <= length l)%nat -> Forall (fun x => finite x /\ Rabs (real x) < IZR (2 ^ 32)) (firstn n l) -> whole_peak (firstn n l) m -> finite amp -> real amp <> 0 -> m <> 0%Z ->
  samples_set_gain64 l n amp = Some (map (fun x => fmul x (let d := fdiv (f_of_Z m) amp in fadd (f_of_Z 1) (fdiv (fsub (f_of_Z 1) d) d))) (firstn n l) ++ skipn n l).
Proof.
  intros hn hf hp fa a0 m0. destruct (peak_found l n m hn hf hp) as [e ml]. unfold samples_set_gain64. rewrite e. cbn [bind]. destruct hp as (mp & _). destruct (f_of_Z_exact m ltac:(lia)) as [fm rm].
  rewrite !eqb_zero by assumption. rewrite rm. rewrite !Req_bool_false; [|apply not_eq_sym, not_0_IZR; exact m0|apply not_eq_sym; exact a0]. cbn [orb]. cbv zeta. apply (inplace_map (fun x => fmul x (fadd (f_of_Z 1) (fdiv (fsub (f_of_Z 1) (fdiv (f_of_Z m) amp)) (fdiv (f_of_Z m) amp)))) n l hn).
Qed.
Lemma gain_near l n amp m : (n <= length l)%nat -> Forall (fun x => finite x /\ Rabs (real x) < IZR (2 ^ 32)) (firstn n l) -> whole_peak (firstn n l) m -> (1 <= m)%Z -> finite amp -> B (-900) <= Rabs (real amp) <= B 900 ->
  exists l', samples_set_gain64 l n amp = Some l' /\ rest_kept n l l' /\
    forall i x, (i < n)%nat -> nth_error l i = Some x -> exists y, nth_error l' i = Some y /\ finite y /\
      Rabs (real y - real x * (real amp / IZR m)) <= 8 * u * (Rabs (real x) + Rabs (real x * (real amp / IZR m))) + B (-1022).
Proof.
  intros hn hf hp m1 fa ha. destruct (peak_found l n m hn hf hp) as [_ ml]. assert (a0 : real amp <> 0). { intros z. rewrite z, Rabs_R0 in ha. pose proof (bpow_gt_0 radix2 (-900)). lra. }
  eexists. split; [apply gain_run; eauto; lia|]. split; [apply map_rest; exact hn|]. intros i x hi ex. destruct (correction_near m amp ltac:(lia) fa ha) as [fc hc]. cbv zeta in fc, hc. set (c := fadd _ _) in *.
  rewrite Forall_forall in hf. destruct (hf x (in_front l n i x hi ex)) as [fx bx]. pose proof u_pos. pose proof u_16.
  exists (fmul x c). split; [exact (map_front (fun x => fmul x c) n l _ i x hi hn ex)|].
  destruct (gain_product x c (real amp / IZR m) (6 * u) fx fc) as [r1 r2]; [lra|exact hc| |split; [exact r1|]].
  - assert (mi : 1 <= IZR m) by (apply IZR_le; lia). assert (ga : Rabs (real amp / IZR m) <= B 900). { unfold Rdiv. rewrite Rabs_mult, Rabs_inv, (Rabs_pos_eq (IZR m)) by lra. apply Rmult_le_reg_r with (IZR m); [lra|]. rewrite Rmult_assoc, Rinv_l, Rmult_1_r by lra. pose proof (bpow_gt_0 radix2 900). nra. }
    assert (g1 : 1 <= B 900) by (change 1 with (B 0); apply bpow_le; lia). apply Rle_trans with (B 32 * B 901); [|rewrite <- bpow_plus; apply bpow_le; lia]. apply Rmult_le_compat; [apply Rabs_pos|pose proof (Rabs_pos (real amp / IZR m)); lra|change (B 32) with (IZR (2 ^ 32)); lra|].
    assert (e1 : B 901 = 2 * B 900) by (change 2 with (B 1); rewrite <- bpow_plus; reflexivity). lra.
  - eapply Rle_trans; [exact r2|]. lra.
Qed.
Lemma gain_kept l n amp m : (n <= length l)%nat -> Forall (fun x => finite x /\ Rabs (real x) < IZR (2 ^ 32)) (firstn n l) -> whole_peak (firstn n l) m -> finite amp -> real amp = 0 \/ m = 0%Z ->
  samples_set_gain64 l n amp = Some l.
Proof.
  intros hn hf hp fa h. destruct (peak_found l n m hn hf hp) as [e ml]. unfold samples_set_gain64. rewrite e. cbn [bind]. destruct hp as (mp & _). destruct (f_of_Z_exact m ltac:(lia)) as [fm rm].
  rewrite !eqb_zero by assumption. rewrite rm. destruct h as [->| ->]; [rewrite Req_bool_true by reflexivity; reflexivity|]. rewrite (Req_bool_true 0 0) by reflexivity. rewrite orb_true_r. reflexivity.
Qed.

(** a great reduction *)
Lemma less_one d : generic_format radix2 fexp64 d -> B 55 <= d -> rnd (d - 1) = d.
Proof.
  intros fd hd. assert (b54 : B 55 = 2 * B 54) by (change 2 with (B 1); rewrite <- bpow_plus; reflexivity). assert (b1 : 1 <= B 54) by (change 1 with (B 0); apply bpow_le; lia).
  assert (dp : 0 < d - 1) by lra. assert (mg : (55 <= mag radix2 (d - 1))%Z). { apply mag_ge_bpow. rewrite Rabs_pos_eq by lra. change (55 - 1)%Z with 54%Z. lra. }
  assert (mle : (mag radix2 (d - 1) <= mag radix2 d)%Z) by (apply mag_le; lra). unfold round, scaled_mantissa. set (c := cexp radix2 fexp64 (d - 1)). assert (c2 : (2 <= c)%Z) by (unfold c, cexp, FLT_exp; lia).
  assert (cd : (c <= cexp radix2 fexp64 d)%Z) by (unfold c, cexp, FLT_exp; lia). rewrite fd. unfold F2R. cbn [Fnum Fexp]. set (k := Ztrunc (scaled_mantissa radix2 fexp64 d)). set (e := cexp radix2 fexp64 d) in *.
  assert (pe : B e = IZR (2 ^ (e - c)) * B c). { change 2%Z with (radix_val radix2). rewrite (IZR_Zpower radix2) by lia. rewrite <- bpow_plus. f_equal. ring. }
  assert (N : (IZR k * B e - 1) * B (- c) = IZR (k * 2 ^ (e - c)) - B (- c)). { rewrite pe, mult_IZR. rewrite Rmult_minus_distr_r, Rmult_1_l. rewrite <- Rmult_assoc. rewrite (Rmult_assoc (IZR k * _)), <- bpow_plus. replace (c + - c)%Z with 0%Z by ring. change (B 0) with 1. ring. }
  rewrite N. rewrite (Znearest_imp _ _ (k * 2 ^ (e - c))).
  - rewrite mult_IZR, pe. ring.
  - replace (IZR (k * 2 ^ (e - c)) - B (- c) - IZR (k * 2 ^ (e - c))) with (- B (- c)) by ring. rewrite Rabs_Ropp, Rabs_pos_eq by apply bpow_ge_0. apply Rle_lt_trans with (B (-2)); [apply bpow_le; lia|]. change (B (-2)) with (/ 4). lra.
Qed.
Lemma gain_silent l n amp m : (n <= length l)%nat -> Forall (fun x => finite x /\ Rabs (real x) < IZR (2 ^ 32)) (firstn n l) -> whole_peak (firstn n l) m -> (1 <= m)%Z -> finite amp -> B (-900) <= real amp -> real amp * IZR (2 ^ 55) <= IZR m ->
  exists l', samples_set_gain64 l n amp = Some l' /\ forall i, (i < n)%nat -> exists y, nth_error l' i = Some y /\ real y = 0.
Proof.
  intros hn hf hp m1 fa ha hs. destruct (peak_found l n m hn hf hp) as [_ ml]. assert (ap : 0 < real amp) by (pose proof (bpow_gt_0 radix2 (-900)); lra). destruct one_real as [f1 r1]. destruct (f_of_Z_exact m ltac:(lia)) as [fm rm].
  assert (m2 : IZR m <= B 32) by (change (B 32) with (IZR (2 ^ 32)); apply IZR_le; lia). change (IZR (2 ^ 55)) with (B 55) in hs.
  eexists. split; [apply gain_run; eauto; [lra|lia]|]. intros i hi. destruct (get_some l i ltac:(lia)) as [x ex]. rewrite Forall_forall in hf. destruct (hf x (in_front l n i x hi ex)) as [fx bx].
  cbv zeta. set (d := fdiv (f_of_Z m) amp). set (c := fadd _ _). exists (fmul x c). split; [exact (map_front (fun x => fmul x c) n l _ i x hi hn ex)|].
  set (d0 := IZR m / real amp). assert (d0l : B 55 <= d0). { apply Rmult_le_reg_r with (real amp); [exact ap|]. unfold d0, Rdiv. rewrite Rmult_assoc, Rinv_l, Rmult_1_r by lra. lra. }
  assert (d0h : d0 <= B 932). { apply Rmult_le_reg_r with (real amp); [exact ap|]. unfold d0, Rdiv. rewrite Rmult_assoc, Rinv_l, Rmult_1_r by lra. apply Rle_trans with (B 932 * B (-900)); [rewrite <- bpow_plus; change (932 + -900)%Z with 32%Z; lra|]. apply Rmult_le_compat_l; [apply bpow_ge_0|lra]. }
  assert (b55 : 1 <= B 55) by (change 1 with (B 0); apply bpow_le; lia). assert (b1 : B 932 <= B 1000) by (apply bpow_le; lia). pose proof big_1000 as b2. pose proof (bpow_gt_0 radix2 1000).
  destruct (fdiv_fin (f_of_Z m) amp fm ltac:(lra)) as [fd rd]; [rewrite rm; fold d0; rewrite Rabs_pos_eq; lra|]. fold d in fd, rd. rewrite rm in rd. fold d0 in rd.
  assert (dl : B 55 <= real d). { rewrite rd, <- (rnd_id (B 55)) by (apply format_bpow; lia). apply rnd_le. exact d0l. }
  assert (dh : real d <= B 932). { rewrite rd, <- (rnd_id (B 932)) by (apply format_bpow; lia). apply rnd_le. exact d0h. }
  destruct (fsub_ok (f_of_Z 1) d f1 fd) as (fs & rs & _); [rewrite r1; apply Rabs_le; lra|]. rewrite r1 in rs.
  assert (sv : real (fsub (f_of_Z 1) d) = - real d). { rewrite rs. replace (1 - real d) with (- (real d - 1)) by ring. rewrite rnd_opp, less_one; [reflexivity|apply format_real|exact dl]. }
  assert (qv : real (fsub (f_of_Z 1) d) / real d = -1) by (rewrite sv; field; lra). assert (one : generic_format radix2 fexp64 1) by (rewrite <- r1; apply format_real).
  destruct (fdiv_fin (fsub (f_of_Z 1) d) d fs ltac:(lra)) as [fq rq]; [rewrite qv, abs_m1; lra|]. rewrite qv in rq. change (-1) with (- (1)) in rq. rewrite rnd_opp, (rnd_id 1 one) in rq.
  destruct (fadd_ok (f_of_Z 1) (fdiv (fsub (f_of_Z 1) d) d) f1 fq) as (fc & rc & _); [rewrite r1, rq; replace (1 + - (1)) with 0 by ring; rewrite Rabs_R0; apply bpow_ge_0|]. fold c in fc, rc. rewrite r1, rq in rc. replace (1 + - (1)) with 0 in rc by ring. rewrite (rnd_id 0) in rc by apply generic_format_0.
  destruct (fmul_fin x c fx fc) as [_ rp]; [rewrite rc, Rmult_0_r, Rabs_R0; apply bpow_ge_0|]. rewrite rp, rc, Rmult_0_r. apply rnd_id, generic_format_0.
Qed.
Lemma unity_near l reference n m r : (n <= length l)%nat -> (n <= length reference)%nat -> Forall (fun x => finite x /\ Rabs (real x) < IZR (2 ^ 32)) (firstn n l) ->
  Forall (fun x => finite x /\ Rabs (real x) < IZR (2 ^ 32)) (firstn n reference) -> whole_peak (firstn n l) m -> whole_peak (firstn n reference) r -> (1 <= m)%Z -> (1 <= r)%Z ->
  exists l', samples_set_unity_gain64 l reference n = Some l' /\ rest_kept n l l' /\
    forall i x, (i < n)%nat -> nth_error l i = Some x -> exists y, nth_error l' i = Some y /\ finite y /\
      Rabs (real y - real x * (IZR r / IZR m)) <= 8 * u * (Rabs (real x) + Rabs (real x * (IZR r / IZR m))) + B (-1022).
Proof.
  intros hn hr hf hg hm hp m1 r1. destruct (peak_found reference n r hr hg hp) as [e rl]. unfold samples_set_unity_gain64. rewrite e. cbn [bind]. destruct (f_of_Z_exact r ltac:(lia)) as [fr rr].
  assert (ri : 1 <= IZR r) by (apply IZR_le; lia). assert (r32 : IZR r <= IZR (2 ^ 32)) by (apply IZR_le; lia). assert (b32 : IZR (2 ^ 32) <= B 900) by (change (IZR (2 ^ 32)) with (B 32); apply bpow_le; lia).
  assert (b0 : B (-900) <= 1) by (change 1 with (B 0); apply bpow_le; lia).
  assert (ha : B (-900) <= Rabs (real (f_of_Z r)) <= B 900) by (rewrite rr, Rabs_pos_eq by lra; split; [exact (Rle_trans _ _ _ b0 ri)|exact (Rle_trans _ _ _ r32 b32)]).
  destruct (gain_near l n (f_of_Z r) m hn hf hm m1 fr ha) as (l' & e' & k & h). exists l'. rewrite rr in h. exact (conj e' (conj k h)).
Qed.
