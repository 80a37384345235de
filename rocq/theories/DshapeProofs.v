(** Proofs about DshapeModel.v *)
From Coq Require Import ZArith Reals List Bool Lia Lra Psatz.
From Flocq Require Import Core BinarySingleNaN Sterbenz.
From Verif Require Import Base DblModel DblSpec DblProofs Dbl2Proofs DlineModel DlineProofs DstatProofs ArrProofs ScaleProofs DarrModel DarrProofs DshapeModel.
Import ListNotations.
Open Scope R_scope.

Lemma two32_pow : Base.two32 = (2 ^ 32)%Z. Proof. reflexivity. Qed.
(** ** k * (1 / n) *)
Lemma tie_to_one : rnd (1 + B (-53)) = 1.
Proof.
  destruct one_real as [f1 r1]. destruct (fmake_exact 1 (-53) ltac:(cbn; lia) ltac:(lia)) as [f2 r2]. rewrite Rmult_1_l in r2. assert (l : B (-53) <= B 0) by (apply bpow_le; lia). change (B 0) with 1 in l. pose proof (bpow_gt_0 radix2 (-53)).
  assert (b : 2 <= B 1022) by (change 2 with (B 1); apply bpow_le; lia).
  destruct (fadd_ok (f_of_Z 1) (fmake 1 (-53)) f1 f2) as (_ & r & _); [rewrite r1, r2, Rabs_pos_eq; lra|]. rewrite r1, r2 in r. rewrite <- r. rewrite <- r1. f_equal.
  apply B2SF_inj. vm_compute. reflexivity.
Qed.
Lemma unit_product x k n : finite x -> real x = IZR k -> (0 <= k <= n)%Z -> (1 <= n < 2 ^ 32)%Z ->
  let v := fmul x (fdiv (f_of_Z 1) (f_of_Z n)) in finite v /\ 0 <= real v <= 1 /\ Rabs (real v - IZR k / IZR n) <= 3 * u * (IZR k / IZR n) /\ ((k < n)%Z -> real v < 1).
Proof.
  intros fx rx hk hn v. pose proof u_pos as up. destruct one_real as [f1 r1]. destruct (f_of_Z_exact n ltac:(lia)) as [fn rn]. assert (n1 : 1 <= IZR n) by (apply IZR_le; lia).
  assert (n32 : IZR n <= B 32) by (change (B 32) with (IZR (2 ^ 32)); apply IZR_le; lia). assert (k0 : 0 <= IZR k) by (apply IZR_le; lia). assert (kn : IZR k <= IZR n) by (apply IZR_le; lia).
  assert (i0 : 0 < / IZR n) by (apply Rinv_0_lt_compat; lra). assert (i1 : / IZR n <= 1) by (rewrite <- Rinv_1; apply Rinv_le_contravar; lra).
  assert (il : B (-32) <= / IZR n) by (change (B (-32)) with (/ B 32); apply Rinv_le_contravar; [lra|exact n32]).
  assert (bt : B (-1022) <= B (-32)) by (apply bpow_le; lia). assert (b2 : 4 <= B 1022) by (change 4 with (B 2); apply bpow_le; lia). assert (u8 : u <= / 8) by (pose proof u_16; lra).
  assert (q1 : 1 / IZR n = / IZR n) by (unfold Rdiv; ring).
  destruct (fdiv_fin (f_of_Z 1) (f_of_Z n) f1) as [fw rw]; [rewrite rn; lra|rewrite r1, rn, q1, Rabs_pos_eq; lra|]. rewrite r1, rn, q1 in rw. set (w := fdiv (f_of_Z 1) (f_of_Z n)) in *.
  destruct (rnd_rel_normal (/ IZR n)) as (e1 & he1 & re1); [rewrite Rabs_pos_eq; lra|]. rewrite re1 in rw. apply Rabs_le_inv in he1.
  set (p := IZR k * / IZR n). assert (p0 : 0 <= p) by (unfold p; nra). assert (p1 : p <= 1) by (unfold p; apply Rmult_le_reg_r with (IZR n); [lra|]; rewrite Rmult_assoc, Rinv_l by lra; lra).
  assert (pr : real x * real w = p * (1 + e1)) by (rewrite rx, rw; unfold p; ring).
  destruct (fmul_fin x w fx fw) as [fv rv]; [rewrite pr, Rabs_pos_eq by nra; nra|]. fold v in fv, rv. rewrite pr in rv. split; [exact fv|].
  assert (v0 : 0 <= real v) by (rewrite rv; apply rnd_pos; nra).
  assert (v1 : real v <= 1). { rewrite rv. eapply Rle_trans; [|apply Req_le, tie_to_one]. apply rnd_le. change (B (-53)) with u. nra. }
  change (IZR k / IZR n) with p. assert (er : Rabs (real v - p) <= 3 * u * p).
  { destruct (Z.eq_dec k 0) as [z|nz].
    - assert (pz : p = 0) by (unfold p; rewrite z; apply Rmult_0_l). rewrite rv, pz, Rmult_0_l, (rnd_id 0) by apply generic_format_0. rewrite Rminus_0_r, Rabs_R0. lra.
    - assert (k1 : 1 <= IZR k) by (apply IZR_le; lia). assert (pl : B (-32) <= p) by (unfold p; nra).
      assert (bh : B (-1022) <= B (-33)) by (apply bpow_le; lia). assert (b33 : B (-33) = / 2 * B (-32)) by (change (/ 2) with (B (-1)); rewrite <- bpow_plus; reflexivity).
      destruct (rnd_rel_normal (p * (1 + e1))) as (e2 & he2 & re2); [rewrite Rabs_pos_eq by nra; pose proof (bpow_gt_0 radix2 (-32)); nra|]. apply Rabs_le_inv in he2. rewrite rv, re2.
      replace (p * (1 + e1) * (1 + e2) - p) with (p * (e1 + e2 + e1 * e2)) by ring. rewrite Rabs_mult, (Rabs_pos_eq p), Rmult_comm by exact p0. apply Rmult_le_compat_r; [exact p0|].
      assert (Rabs (e1 * e2) <= u * u) by (apply Rabs_prod_le; apply Rabs_le; lra). apply Rabs_le_inv in H. apply Rabs_le. nra. }
  split; [lra|]. split; [exact er|]. intros lt. assert (kp : IZR k + 1 <= IZR n) by (rewrite <- plus_IZR; apply IZR_le; lia).
  assert (pn : p <= 1 - / IZR n). { unfold p. apply Rmult_le_reg_r with (IZR n); [lra|]. rewrite Rmult_minus_distr_r, Rmult_assoc, !Rinv_l by lra. lra. }
  assert (u3 : 3 * u < B (-32)). { assert (e : B (-32) = u * B 21) by (rewrite u_val, <- bpow_plus; reflexivity). rewrite e. assert (4 <= B 21) by (change 4 with (B 2); apply bpow_le; lia). nra. }
  apply Rabs_le_inv in er. nra.
Qed.
Lemma triangle_near t a b : (0 <= t < 2 ^ 32)%Z -> (0 <= a)%Z -> (0 <= b)%Z -> (0 < a + b < 2 ^ 32)%Z ->
  exists v, triangle64 t a b = Some v /\ finite v /\ 0 <= real v <= 1 /\ let r := (t mod (a + b))%Z in
    ((r < a)%Z -> Rabs (real v - IZR r / IZR a) <= 3 * u * (IZR r / IZR a) /\ real v < 1) /\ ((a <= r)%Z -> Rabs (real v - IZR (a + b - r) / IZR b) <= 3 * u * (IZR (a + b - r) / IZR b)).
Proof.
  intros ht ha hb hs. pose proof u_pos as up. unfold triangle64. rewrite (u32_small (a + b)) by (rewrite two32_pow; lia). destruct (Z.eqb_spec (a + b) 0); [lia|]. eexists. split; [reflexivity|]. cbv zeta. pose proof (Z.mod_pos_bound t (a + b) ltac:(lia)) as hr. set (r := (t mod (a + b))%Z) in *.
  destruct (Z.ltb_spec r a) as [lt|ge].
  - destruct (f_of_Z_exact r ltac:(lia)) as [fr rr]. destruct (unit_product (f_of_Z r) r a fr rr ltac:(lia) ltac:(lia)) as (f & v01 & er & l1). split; [exact f|]. split; [exact v01|]. split; [|lia]. intros _. split; [|apply l1; lia]. exact er.
  - destruct (f_of_Z_exact r ltac:(lia)) as [fr rr]. destruct (f_of_Z_exact a ltac:(lia)) as [fa ra]. destruct (f_of_Z_exact b ltac:(lia)) as [fb rb].
    destruct (fsub_ints _ _ r a fr fa rr ra ltac:(lia) ltac:(lia)) as [f2 r2]. destruct (fsub_ints _ _ b (r - a) fb f2 rb r2 ltac:(lia) ltac:(lia)) as [f3 r3].
    destruct (unit_product _ (b - (r - a)) b f3 r3 ltac:(lia) ltac:(lia)) as (f & v01 & er & l1). split; [exact f|]. split; [exact v01|]. split; [lia|]. intros _. replace (a + b - r)%Z with (b - (r - a))%Z by ring. exact er.
Qed.

Lemma peak_49 a : (0 <= a)%Z -> (a + 49 < 2 ^ 32)%Z -> exists v, triangle64 a a 49 = Some v /\ finite v /\ real v = 1 - u.
Proof.
  intros ha hs. unfold triangle64. rewrite (u32_small (a + 49)) by (rewrite two32_pow; lia). destruct (Z.eqb_spec (a + 49) 0); [lia|]. cbv zeta. rewrite Z.mod_small by lia. rewrite Z.ltb_irrefl. eexists. split; [reflexivity|].
  destruct (f_of_Z_exact a ltac:(lia)) as [fa ra]. destruct (f_of_Z_exact 49 eq_refl) as [fb rb]. destruct (fsub_ints _ _ a a fa fa ra ra ltac:(lia) ltac:(lia)) as [f2 r2]. destruct (fsub_ints _ _ 49 (a - a) fb f2 rb r2 ltac:(lia) ltac:(lia)) as [f3 r3].
  replace (49 - (a - a))%Z with 49%Z in r3 by ring. set (w := fdiv (f_of_Z 1) (f_of_Z 49)). set (x := fsub (f_of_Z 49) _) in *. assert (fw : finite w) by reflexivity.
  assert (wb : w = fmake 5882252574524729 (-58)) by (apply B2SF_inj; vm_compute; reflexivity). destruct (fmake_exact 5882252574524729 (-58) ltac:(cbn; lia) ltac:(lia)) as [_ rw]. rewrite <- wb in rw.
  assert (sm : Rabs (49 * real w) <= B 1022). { rewrite rw. assert (4 <= B 1022) by (change 4 with (B 2); apply bpow_le; lia). change (B (-58)) with (/ 288230376151711744). rewrite Rabs_pos_eq; lra. }
  destruct (fmul_fin x w f3 fw) as [f r]; [rewrite r3; exact sm|]. split; [exact f|]. destruct (fmul_fin (f_of_Z 49) w fb fw) as [f' r']; [rewrite rb; exact sm|]. rewrite rb in r'. rewrite r, r3, <- r'.
  assert (e : fmul (f_of_Z 49) w = fmake 9007199254740991 (-53)) by (apply B2SF_inj; vm_compute; reflexivity). rewrite e. destruct (fmake_exact 9007199254740991 (-53) ltac:(cbn; lia) ltac:(lia)) as [_ ->].
  change (B (-53)) with (/ 9007199254740992). change u with (/ 9007199254740992). lra.
Qed.

(** ** Pan *)
Lemma format_twice x : generic_format radix2 fexp64 x -> generic_format radix2 fexp64 (2 * x).
Proof.
  intros h. apply FLT_format_generic in h; [|reflexivity]. destruct h as [[m e] h1 h2 h3]. cbn [Fnum Fexp] in *. apply generic_format_FLT. apply (FLT_spec _ _ _ _ (Float radix2 m (e + 1))); cbn [Fnum Fexp]; [|exact h2|lia].
  rewrite h1. unfold F2R. cbn [Fnum Fexp]. rewrite bpow_plus. change (B 1) with 2. ring.
Qed.
Lemma limit_real x mn mx : finite x -> finite mn -> finite mx -> real mn <= real mx ->
  let y := inline_limit64 x mn mx in finite y /\ (real x <= real mn -> real y = real mn) /\ (real mn <= real x <= real mx -> real y = real x) /\ (real mx <= real x -> real y = real mx).
Proof.
  intros fx fn fm h. unfold inline_limit64. cbv zeta. rewrite (flt_ok mx x fm fx). destruct (Rlt_bool_spec (real mx) (real x)) as [l|l]; rewrite flt_ok by assumption.
  - rewrite Rlt_bool_false by lra. repeat split; auto; intros; try lra.
  - destruct (Rlt_bool_spec (real x) (real mn)); repeat split; auto; intros; lra.
Qed.
Lemma half_div x : finite x -> Rabs (real x) <= 1 -> finite (fdiv x fhalf) /\ real (fdiv x fhalf) = 2 * real x.
Proof.
  intros fx hx. destruct fhalf_real as [fh rh]. assert (q : real x / real fhalf = 2 * real x) by (rewrite rh; field). assert (b : 4 <= B 1022) by (change 4 with (B 2); apply bpow_le; lia).
  destruct (fdiv_fin x fhalf fx) as [f r]; [rewrite rh; lra|rewrite q; apply Rabs_le_inv in hx; apply Rabs_le; lra|]. split; [exact f|]. rewrite r, q. apply rnd_id, format_twice, format_real.
Qed.
Lemma pan_exact v : finite v -> let x := real v in let p := real (pan_to_amp64 v 0) in let q := real (pan_to_amp64 v 1) in
  finite (pan_to_amp64 v 0) /\ finite (pan_to_amp64 v 1) /\
  (x <= / 2 -> p = 1) /\ (/ 2 <= x <= 1 -> p = 2 - 2 * x) /\ (1 <= x -> p = 0) /\ (x <= 0 -> q = 0) /\ (0 <= x <= / 2 -> q = 2 * x) /\ (/ 2 <= x -> q = 1).
Proof.
  intros fv x p q. destruct fhalf_real as [fh rh]. destruct one_real as [f1 r1]. destruct (f_of_Z_exact 0 eq_refl) as [f0 r0]. assert (b : 4 <= B 1022) by (change 4 with (B 2); apply bpow_le; lia).
  assert (P : finite (pan_to_amp64 v 0) /\ (x <= / 2 -> p = 1) /\ (/ 2 <= x <= 1 -> p = 2 - 2 * x) /\ (1 <= x -> p = 0)).
  { unfold p, pan_to_amp64. change (Z.odd 0) with false. cbv iota. change (0 + 1)%Z with 1%Z. destruct (fadd_ok (f_of_Z 0) fhalf f0 fh) as (fl & rl & _); [rewrite r0, rh; apply Rabs_le; lra|]. rewrite r0, rh, Rplus_0_l in rl. rewrite (rnd_id (/ 2)) in rl by (rewrite <- rh; apply format_real).
    destruct (limit_real v (fadd (f_of_Z 0) fhalf) (f_of_Z 1) fv fl f1 ltac:(rewrite rl, r1; lra)) as (fy & y1 & y2 & y3). set (y := inline_limit64 _ _ _) in *. rewrite rl, r1 in *. fold x in y1, y2, y3.
    assert (yr : / 2 <= real y <= 1). { destruct (Rle_lt_dec x (/ 2)); [rewrite y1; lra|]. destruct (Rle_lt_dec x 1); [rewrite y2; lra|rewrite y3; lra]. }
    destruct (fsub_ok y fhalf fy fh) as (fs & rs & _); [rewrite rh; apply Rabs_le; lra|]. rewrite rh in rs.
    assert (fo : generic_format radix2 fexp64 (real y - / 2)). { apply sterbenz; [typeclasses eauto|typeclasses eauto|apply format_real|rewrite <- rh; apply format_real|lra]. }
    rewrite (rnd_id _ fo) in rs. destruct (half_div (fsub y fhalf) fs) as [fd rd]; [rewrite rs; apply Rabs_le; lra|]. rewrite rs in rd.
    destruct (fsub_ok (f_of_Z 1) (fdiv (fsub y fhalf) fhalf) f1 fd) as (fr & rr & _); [rewrite r1, rd; apply Rabs_le; lra|]. rewrite r1, rd in rr.
    assert (fo2 : generic_format radix2 fexp64 (1 - real y)). { replace (1 - real y) with (- (real y - 1)) by ring. apply generic_format_opp. apply sterbenz; [typeclasses eauto|typeclasses eauto|apply format_real|rewrite <- r1; apply format_real|lra]. }
    replace (1 - 2 * (real y - / 2)) with (2 * (1 - real y)) in rr by field. rewrite (rnd_id _ (format_twice _ fo2)) in rr. rewrite rr. split; [exact fr|]. repeat split; intros h.
    - rewrite y1 by exact h. field. - rewrite y2 by exact h. ring. - rewrite y3 by exact h. ring. }
  assert (Q : finite (pan_to_amp64 v 1) /\ (x <= 0 -> q = 0) /\ (0 <= x <= / 2 -> q = 2 * x) /\ (/ 2 <= x -> q = 1)).
  { unfold q, pan_to_amp64. change (Z.odd 1) with true. cbv iota. change (1 - 1)%Z with 0%Z. destruct (fsub_ok (f_of_Z 1) fhalf f1 fh) as (fl & rl & _); [rewrite r1, rh; apply Rabs_le; lra|]. rewrite r1, rh in rl. replace (1 - / 2) with (/ 2) in rl by field. rewrite (rnd_id (/ 2)) in rl by (rewrite <- rh; apply format_real).
    destruct (limit_real v (f_of_Z 0) (fsub (f_of_Z 1) fhalf) fv f0 fl ltac:(rewrite rl, r0; lra)) as (fy & y1 & y2 & y3). set (y := inline_limit64 _ _ _) in *. rewrite rl, r0 in *. fold x in y1, y2, y3.
    assert (yr : 0 <= real y <= / 2). { destruct (Rle_lt_dec x 0); [rewrite y1; lra|]. destruct (Rle_lt_dec x (/ 2)); [rewrite y2; lra|rewrite y3; lra]. }
    destruct (half_div y fy) as [fd rd]; [apply Rabs_le; lra|]. rewrite rd. split; [exact fd|]. repeat split; intros h.
    - rewrite y1 by exact h. ring. - rewrite y2 by exact h. ring. - rewrite y3 by exact h. field. }
  tauto.
Qed.

(** ** Rounding by an amount *)
Lemma IZR_pow_format z : (Z.abs z < 2 ^ 53)%Z -> generic_format radix2 fexp64 (IZR z).
Proof. intros h. destruct (f_of_Z_exact z h) as [_ <-]. apply format_real. Qed.
Lemma harmonize_near a base amount : (0 <= a)%Z -> (0 < base)%Z -> (a + base < 2 ^ 32)%Z -> finite amount -> 0 <= real amount <= 1 ->
  let next := ((a + base - 1) / base * base)%Z in
  exists z, harmonize64 a base amount = Some z /\ (a <= z <= next)%Z /\ IZR z - / IZR (2 ^ 20) <= IZR a + real amount * IZR (next - a) < IZR z + 1 + / IZR (2 ^ 20) /\
    (real amount = 0 -> z = a) /\ (real amount = 1 -> z = next).
Proof.
  intros ha hb hs fm hm next. pose proof u_pos as up. assert (nx : (a <= next < a + base)%Z). { unfold next. pose proof (Z.div_mod (a + base - 1) base ltac:(lia)). pose proof (Z.mod_pos_bound (a + base - 1) base ltac:(lia)). nia. }
  unfold harmonize64. destruct (Z.eqb_spec base 0); [lia|]. rewrite (u32_small (a + base)), (u32_small (a + base - 1)) by (rewrite two32_pow; lia). fold next. rewrite (u32_small next) by (rewrite two32_pow; lia).
  destruct (Z.ltb_spec next a); [lia|]. rewrite (u32_small (next - a)) by (rewrite two32_pow; lia). cbv zeta. set (d := (next - a)%Z). destruct (f_of_Z_exact d ltac:(unfold d; lia)) as [fd rd]. destruct (f_of_Z_exact a ltac:(lia)) as [fa ra].
  assert (d0 : 0 <= IZR d) by (apply IZR_le; unfold d; lia). assert (d32 : IZR d <= B 32) by (change (B 32) with (IZR (2 ^ 32)); apply IZR_le; unfold d; lia). assert (a0 : 0 <= IZR a) by (apply IZR_le; lia). assert (ad : IZR a + IZR d <= B 32) by (rewrite <- plus_IZR; change (B 32) with (IZR (2 ^ 32)); apply IZR_le; unfold d; lia).
  assert (b : 4 * B 32 <= B 1022) by (change 4 with (B 2); rewrite <- bpow_plus; apply bpow_le; lia). pose proof (bpow_gt_0 radix2 32) as b32.
  set (m := real amount) in *. assert (md : 0 <= m * IZR d <= IZR d) by nra.
  destruct (fmul_fin amount (f_of_Z d) fm fd) as [fp rp]; [rewrite rd; fold m; rewrite Rabs_pos_eq; lra|]. rewrite rd in rp. fold m in rp. set (p := fmul amount (f_of_Z d)) in *.
  assert (p1 : 0 <= real p <= IZR d). { rewrite rp. split; [apply rnd_pos; lra|]. apply Rle_trans with (rnd (IZR d)); [apply rnd_le; lra|]. rewrite rnd_id; [lra|apply IZR_pow_format; unfold d; lia]. }
  destruct (fadd_ok (f_of_Z a) p fa fp) as (fr & rr & _); [rewrite ra, Rabs_pos_eq; lra|]. rewrite ra in rr. set (r := fadd (f_of_Z a) p) in *.
  assert (r1 : IZR a <= real r <= IZR next). { rewrite rr. split.
    - apply Rle_trans with (rnd (IZR a)); [rewrite rnd_id; [lra|apply IZR_pow_format; lia]|apply rnd_le; lra].
    - apply Rle_trans with (rnd (IZR next)); [apply rnd_le; replace next with (a + d)%Z by (unfold d; ring); rewrite plus_IZR; lra|rewrite rnd_id; [lra|apply IZR_pow_format; lia]]. }
  pose proof (Zfloor_lb (real r)) as l1. pose proof (Zfloor_ub (real r)) as l2. set (z := Zfloor (real r)) in *.
  assert (za : (a <= z)%Z) by (apply Zfloor_lub; lra). assert (zn : (z <= next)%Z) by (apply le_IZR; lra).
  exists z. split; [apply time_of_f64_some; [exact fr|lia|lra]|]. split; [lia|]. split; [|split].
  - pose proof (rnd_any (m * IZR d)) as e1. rewrite <- rp in e1. rewrite (Rabs_pos_eq (m * IZR d)) in e1 by lra.
    assert (uv : u * B 32 = B (-21)) by (rewrite u_val, <- bpow_plus; reflexivity).
    assert (t0 : B (-1022) <= B (-60)) by (apply bpow_le; lia). assert (t1 : B (-60) <= B (-24)) by (apply bpow_le; lia).
    assert (e20 : / IZR (2 ^ 20) = 2 * B (-21)) by (change (/ IZR (2 ^ 20)) with (B (-20)); change 2 with (B 1); rewrite <- bpow_plus; reflexivity).
    assert (h1 : Rabs (real r - (IZR a + m * IZR d)) <= / IZR (2 ^ 20)).
    { destruct (Rle_lt_dec (B (-1022)) (m * IZR d)) as [n1|n1].
      - destruct (rnd_rel_normal (m * IZR d)) as (x1 & hx1 & rx1); [rewrite Rabs_pos_eq; lra|]. rewrite rx1 in rp.
        destruct (fadd_ok (f_of_Z a) p fa fp) as (_ & _ & x2 & hx2 & rx2); [rewrite ra, Rabs_pos_eq; lra|]. fold r in rx2. rewrite ra in rx2.
        replace (real r - (IZR a + m * IZR d)) with ((IZR a + real p) * x2 + m * IZR d * x1) by (rewrite rx2, rp; ring). eapply Rle_trans; [apply Rabs_triang|].
        assert (Rabs ((IZR a + real p) * x2) <= B 32 * u) by (apply Rabs_prod_le; [rewrite Rabs_pos_eq; lra|exact hx2]). assert (Rabs (m * IZR d * x1) <= B 32 * u) by (apply Rabs_prod_le; [rewrite Rabs_pos_eq; lra|exact hx1]). rewrite e20, <- uv. lra.
      - destruct (fadd_ok (f_of_Z a) p fa fp) as (_ & _ & x2 & hx2 & rx2); [rewrite ra, Rabs_pos_eq; lra|]. fold r in rx2. rewrite ra in rx2.
        replace (real r - (IZR a + m * IZR d)) with ((IZR a + real p) * x2 + (real p - m * IZR d)) by (rewrite rx2; ring). eapply Rle_trans; [apply Rabs_triang|].
        assert (Rabs ((IZR a + real p) * x2) <= B 32 * u) by (apply Rabs_prod_le; [rewrite Rabs_pos_eq; lra|exact hx2]). rewrite e20.
        assert (u * (m * IZR d) <= 1 * B (-1022)) by (pose proof u_16; apply Rmult_le_compat; lra). assert (q1 : B (-21) = 8 * B (-24)) by (change 8 with (B 3); rewrite <- bpow_plus; reflexivity). pose proof (bpow_gt_0 radix2 (-24)). lra. }
    apply Rabs_le_inv in h1. lra.
  - intros h0. apply Z.le_antisymm; [|exact za]. apply le_IZR. assert (real p = 0) by (rewrite rp, h0, Rmult_0_l; apply rnd_id, generic_format_0). assert (real r = IZR a) by (rewrite rr, H0, Rplus_0_r; apply rnd_id, IZR_pow_format; lia). lra.
  - intros h1. apply Z.le_antisymm; [exact zn|]. assert (real p = IZR d) by (rewrite rp, h1, Rmult_1_l; apply rnd_id, IZR_pow_format; unfold d; lia).
    assert (real r = IZR next). { rewrite rr, H0, <- plus_IZR. replace (a + d)%Z with next by (unfold d; ring). apply rnd_id, IZR_pow_format. lia. } apply Zfloor_lub. lra.
Qed.

(** ** Blends of times *)
Lemma round_near r : finite r -> - / 4 <= real r <= IZR (2 ^ 32) - 3 / 4 -> exists z, cheap_round64 r = Some z /\ (0 <= z < 2 ^ 32)%Z /\ Rabs (IZR z - real r) <= / 2 + / IZR (2 ^ 20).
Proof.
  intros fr h. destruct fhalf_real as [fh eh]. pose proof u_pos as up. change (IZR (2 ^ 32)) with (B 32) in h. assert (b : 4 * B 32 <= B 1022) by (change 4 with (B 2); rewrite <- bpow_plus; apply bpow_le; lia). assert (b1 : 4 <= B 32) by (change 4 with (B 2); apply bpow_le; lia).
  assert (uv : u * B 32 = B (-21)) by (rewrite u_val, <- bpow_plus; reflexivity). assert (e20 : / IZR (2 ^ 20) = 2 * B (-21)) by (change (/ IZR (2 ^ 20)) with (B (-20)); change 2 with (B 1); rewrite <- bpow_plus; reflexivity).
  assert (s21 : B (-21) <= B (-4)) by (apply bpow_le; lia). change (B (-4)) with (/ 16) in s21. pose proof (bpow_gt_0 radix2 (-21)).
  destruct (fadd_ok fhalf r fh fr) as (fs & _ & e & he & rs); [rewrite eh; apply Rabs_le; lra|]. rewrite eh in rs. set (s := fadd fhalf r) in *.
  assert (se : Rabs (real s - (/ 2 + real r)) <= B (-21)). { rewrite rs. replace ((/ 2 + real r) * (1 + e) - (/ 2 + real r)) with ((/ 2 + real r) * e) by ring. rewrite <- uv, (Rmult_comm u). apply Rabs_prod_le; [rewrite Rabs_pos_eq; lra|exact he]. }
  apply Rabs_le_inv in se. pose proof (Zfloor_lb (real s)) as l1. pose proof (Zfloor_ub (real s)) as l2. set (z := Zfloor (real s)) in *.
  assert (zr : (0 <= z < 2 ^ 32)%Z). { split; [apply Zfloor_lub; lra|]. apply lt_IZR. change (IZR (2 ^ 32)) with (B 32). lra. }
  exists z. split; [unfold cheap_round64; fold s; apply time_of_f64_some; [exact fs|exact zr|lra]|]. split; [exact zr|]. rewrite e20. apply Rabs_le. lra.
Qed.
Lemma time_interpolate_near x y t : (0 <= x < 2 ^ 32)%Z -> (0 <= y < 2 ^ 32)%Z -> finite t -> 0 <= real t <= 1 ->
  exists z, (v <- time_interpolate64 x y t ;; cheap_round64 (f_of_Z v)) = Some z /\ (Z.min x y <= z <= Z.max x y)%Z /\ Rabs (IZR z - ((1 - real t) * IZR x + real t * IZR y)) <= / 2 + / IZR (2 ^ 18) /\
    (real t = 0 -> z = x) /\ (real t = 1 -> z = y).
Proof.
  intros hx hy ft ht. destruct (f_of_Z_exact x ltac:(lia)) as [fx rx]. destruct (f_of_Z_exact y ltac:(lia)) as [fy ry].
  assert (x0 : 0 <= IZR x) by (apply IZR_le; lia). assert (y0 : 0 <= IZR y) by (apply IZR_le; lia). assert (xm : IZR x <= IZR (2 ^ 32) - 1) by (rewrite <- minus_IZR; apply IZR_le; lia). assert (ym : IZR y <= IZR (2 ^ 32) - 1) by (rewrite <- minus_IZR; apply IZR_le; lia).
  change (IZR (2 ^ 32)) with (B 32) in xm, ym. assert (b32 : B 32 <= B 1000) by (apply bpow_le; lia).
  destruct (blend_value (f_of_Z x) (f_of_Z y) t (B 32) fx fy ft ht) as (fv & ev & v0 & v1); [rewrite rx, Rabs_pos_eq; lra|rewrite ry, Rabs_pos_eq; lra|exact b32|]. rewrite rx, ry in *. set (v := sample_interpolate64 (f_of_Z x) (f_of_Z y) t) in *.
  assert (uv : u * B 32 = B (-21)) by (rewrite u_val, <- bpow_plus; reflexivity). assert (t0 : B (-1020) <= B (-21)) by (apply bpow_le; lia). pose proof (bpow_gt_0 radix2 (-21)). assert (s21 : B (-21) <= B (-6)) by (apply bpow_le; lia). change (B (-6)) with (/ 64) in s21.
  set (E := (1 - real t) * IZR x + real t * IZR y) in *. assert (ev' : Rabs (real v - E) <= 5 * B (-21)) by (replace (4 * u * B 32) with (4 * B (-21)) in ev by (rewrite <- uv; ring); lra). apply Rabs_le_inv in ev'.
  assert (mnr : IZR (Z.min x y) <= E /\ E <= IZR (Z.max x y)). { unfold E. destruct (Z.le_ge_cases x y) as [l|l]; [rewrite Z.min_l, Z.max_r by lia|rewrite Z.min_r, Z.max_l by lia]; apply IZR_le in l.
    - pose proof (Rmult_le_pos (real t) (IZR y - IZR x) ltac:(lra) ltac:(lra)). pose proof (Rmult_le_pos (1 - real t) (IZR y - IZR x) ltac:(lra) ltac:(lra)). split; lra.
    - pose proof (Rmult_le_pos (real t) (IZR x - IZR y) ltac:(lra) ltac:(lra)). pose proof (Rmult_le_pos (1 - real t) (IZR x - IZR y) ltac:(lra) ltac:(lra)). split; lra. }
  assert (m0 : 0 <= IZR (Z.min x y)) by (apply IZR_le; lia). assert (m1 : IZR (Z.max x y) <= B 32 - 1). { destruct (Z.max_spec x y) as [[_ ->]|[_ ->]]; lra. }
  destruct (round_near v fv) as (z & ez & zr & zn). { change (IZR (2 ^ 32)) with (B 32). lra. }
  assert (e20 : / IZR (2 ^ 20) = 2 * B (-21)) by (change (/ IZR (2 ^ 20)) with (B (-20)); change 2 with (B 1); rewrite <- bpow_plus; reflexivity). assert (e18 : / IZR (2 ^ 18) = 8 * B (-21)) by (change (/ IZR (2 ^ 18)) with (B (-18)); change 8 with (B 3); rewrite <- bpow_plus; reflexivity).
  rewrite e20 in zn. apply Rabs_le_inv in zn. exists z. split.
  { unfold time_interpolate64. fold v. rewrite ez. cbn [bind]. exact (times_round_trip z zr). }
  split; [|split; [|split]].
  - split; apply Z.lt_succ_r; apply lt_IZR; rewrite succ_IZR; lra.
  - rewrite e18. apply Rabs_le. lra.
  - intros h0. specialize (v0 h0). apply Z.le_antisymm; apply Z.lt_succ_r; apply lt_IZR; rewrite succ_IZR; lra.
  - intros h1. specialize (v1 h1). apply Z.le_antisymm; apply Z.lt_succ_r; apply lt_IZR; rewrite succ_IZR; lra.
Qed.
Lemma mask_near a b c n out : (n <= length a)%nat -> (n <= length b)%nat -> (n <= length c)%nat -> (n <= length out)%nat -> Forall (fun x => (0 <= x < 2 ^ 32)%Z) a -> Forall (fun x => (0 <= x < 2 ^ 32)%Z) b ->
  Forall (fun t => finite t /\ 0 <= real t <= 1) c ->
  exists out', times_mask64 a b c n out = Some out' /\ length out' = length out /\ (forall i, (n <= i)%nat -> nth_error out' i = nth_error out i) /\
    forall i x y t, (i < n)%nat -> nth_error a i = Some x -> nth_error b i = Some y -> nth_error c i = Some t -> exists z, nth_error out' i = Some z /\ (Z.min x y <= z <= Z.max x y)%Z /\
      Rabs (IZR z - ((1 - real t) * IZR x + real t * IZR y)) <= / 2 + / IZR (2 ^ 18) /\ (real t = 0 -> z = x) /\ (real t = 1 -> z = y).
Proof.
  intros ha hb hc ho ga gb gc. destruct (tab_loop (fun i => x <- aget a i ;; y <- aget b i ;; t <- aget c i ;; v <- time_interpolate64 x y t ;; cheap_round64 (f_of_Z v))
    (fun i z => forall x y t, nth_error a i = Some x -> nth_error b i = Some y -> nth_error c i = Some t -> (Z.min x y <= z <= Z.max x y)%Z /\
      Rabs (IZR z - ((1 - real t) * IZR x + real t * IZR y)) <= / 2 + / IZR (2 ^ 18) /\ (real t = 0 -> z = x) /\ (real t = 1 -> z = y)) n out ho) as (o & e & hl & h1 & h2).
  - intros i hi. destruct (get_some a i ltac:(lia)) as [x ex]. destruct (get_some b i ltac:(lia)) as [y ey]. destruct (get_some c i ltac:(lia)) as [t et]. unfold aget. rewrite ex, ey, et. cbn [bind].
    rewrite Forall_forall in ga, gb, gc. destruct (gc t (nth_error_In _ _ et)) as [ft ht]. destruct (time_interpolate_near x y t (ga x (nth_error_In _ _ ex)) (gb y (nth_error_In _ _ ey)) ft ht) as (z & ez & hz).
    exists z. split; [exact ez|]. intros x' y' t' e1 e2 e3. injection e1 as <-. injection e2 as <-. injection e3 as <-. exact hz.
  - exists o. split; [|split; [exact hl|split; [exact h2|]]].
    + rewrite <- e. unfold times_mask64. apply for_ext. intros i l. destruct (aget a i); [|reflexivity]. cbn [bind]. destruct (aget b i); [|reflexivity]. cbn [bind]. destruct (aget c i); [|reflexivity]. cbn [bind]. destruct (time_interpolate64 _ _ _); reflexivity.
    + intros i x y t hi ex ey et. destruct (h1 i hi) as (z & _ & ez & hz). exists z. split; [exact ez|]. exact (hz x y t ex ey et).
Qed.
Lemma blend_as_mask a b t n out : times_blend64 a b t n out = times_mask64 a b (repeat t n) n out.
Proof.
  unfold times_blend64, times_mask64, for_. apply for_from_ext. intros i l hi. destruct (aget a i); [|reflexivity]. cbn [bind]. destruct (aget b i); [|reflexivity]. cbn [bind]. unfold aget. rewrite nth_error_repeat by lia. reflexivity.
Qed.
Lemma blend_times_near a b t n out : (n <= length a)%nat -> (n <= length b)%nat -> (n <= length out)%nat -> Forall (fun x => (0 <= x < 2 ^ 32)%Z) a -> Forall (fun x => (0 <= x < 2 ^ 32)%Z) b -> finite t -> 0 <= real t <= 1 ->
  exists out', times_blend64 a b t n out = Some out' /\ length out' = length out /\ (forall i, (n <= i)%nat -> nth_error out' i = nth_error out i) /\
    forall i x y, (i < n)%nat -> nth_error a i = Some x -> nth_error b i = Some y -> exists z, nth_error out' i = Some z /\ (Z.min x y <= z <= Z.max x y)%Z /\
      Rabs (IZR z - ((1 - real t) * IZR x + real t * IZR y)) <= / 2 + / IZR (2 ^ 18) /\ (real t = 0 -> z = x) /\ (real t = 1 -> z = y).
Proof.
  intros ha hb ho ga gb ft ht. destruct (mask_near a b (repeat t n) n out ha hb) as (o & e & hl & h2 & h); auto.
  - rewrite repeat_length. lia.
  - apply Forall_forall. intros x hx. apply repeat_spec in hx. subst. auto.
  - exists o. rewrite blend_as_mask. split; [exact e|]. split; [exact hl|]. split; [exact h2|]. intros i x y hi ex ey. apply (h i x y t hi ex ey). apply nth_error_repeat. lia.
Qed.

(** ** Scaling: exact, because the exact results are integers *)
Lemma scale_value64 x y f k : (k < f)%nat -> (Z.of_nat f < 2 ^ 32)%Z -> (0 <= x)%Z -> (0 <= y)%Z -> (x * Z.of_nat f < Base.two32)%Z -> (y * Z.of_nat f < Base.two32)%Z ->
  time_interpolate64 (u32 (x * Z.of_nat f)) (u32 (y * Z.of_nat f)) (fdiv (f_of_Z (Z.of_nat k)) (f_of_Z (Z.of_nat f))) = Some ((Z.of_nat f - Z.of_nat k) * x + Z.of_nat k * y)%Z.
Proof.
  intros hk hf hx hy bx by_. change Base.two32 with (2 ^ 32)%Z in bx, by_. rewrite !u32_small by (rewrite two32_pow; split; [nia|lia]). set (F := Z.of_nat f) in *. set (K := Z.of_nat k) in *. assert (KF : (0 <= K < F)%Z) by lia. pose proof u_pos as up.
  destruct (f_of_Z_exact K ltac:(lia)) as [fK rK]. destruct (f_of_Z_exact F ltac:(lia)) as [fF rF]. assert (F1 : 1 <= IZR F) by (apply IZR_le; lia). assert (K0 : 0 <= IZR K) by (apply IZR_le; lia). assert (K1 : IZR K <= IZR F) by (apply IZR_le; lia).
  set (r := IZR K / IZR F). assert (i0 : 0 < / IZR F) by (apply Rinv_0_lt_compat; lra). assert (r01 : 0 <= r <= 1). { unfold r, Rdiv. split; [apply Rmult_le_pos; lra|]. apply Rmult_le_reg_r with (IZR F); [lra|]. rewrite Rmult_assoc, Rinv_l by lra. lra. }
  assert (b1 : 1 <= B 1022) by (change 1 with (B 0); apply bpow_le; lia).
  destruct (fdiv_fin (f_of_Z K) (f_of_Z F) fK) as [ft rt]; [rewrite rF; lra|rewrite rK, rF; fold r; rewrite Rabs_pos_eq; lra|]. rewrite rK, rF in rt. fold r in rt. set (t := fdiv (f_of_Z K) (f_of_Z F)) in *.
  assert (t01 : 0 <= real t <= 1). { rewrite rt. split; [apply rnd_pos; lra|]. apply Rle_trans with (rnd 1); [apply rnd_le; lra|]. rewrite rnd_id; [lra|]. change 1 with (IZR 1). apply IZR_pow_format. reflexivity. }
  pose proof (rnd_any r) as et. rewrite <- rt in et. rewrite (Rabs_pos_eq r) in et by lra.
  set (E := ((F - K) * x + K * y)%Z). assert (E0 : (0 <= E)%Z) by (unfold E; nia).
  assert (Em : (E < 2 ^ 32)%Z). { unfold E. assert (h3 : ((F - K) * x <= (F - K) * Z.max x y)%Z) by nia. assert (h4 : (K * y <= K * Z.max x y)%Z) by nia. assert (h5 : (F * Z.max x y < 2 ^ 32)%Z) by (destruct (Z.max_spec x y) as [[_ ->]|[_ ->]]; lia). lia. }
  set (X := (x * F)%Z) in *. set (Y := (y * F)%Z) in *. destruct (f_of_Z_exact X ltac:(unfold X; nia)) as [fX rX]. destruct (f_of_Z_exact Y ltac:(unfold Y; nia)) as [fY rY].
  assert (X0 : 0 <= IZR X) by (apply IZR_le; unfold X; nia). assert (Y0 : 0 <= IZR Y) by (apply IZR_le; unfold Y; nia). assert (Xm : IZR X <= B 32) by (change (B 32) with (IZR (2 ^ 32)); apply IZR_le; lia). assert (Ym : IZR Y <= B 32) by (change (B 32) with (IZR (2 ^ 32)); apply IZR_le; lia).
  assert (b32 : B 32 <= B 1000) by (apply bpow_le; lia). destruct (blend_value (f_of_Z X) (f_of_Z Y) t (B 32) fX fY ft t01) as (fv & ev & _); [rewrite rX, Rabs_pos_eq; lra|rewrite rY, Rabs_pos_eq; lra|exact b32|]. rewrite rX, rY in ev.
  unfold time_interpolate64. set (v := sample_interpolate64 (f_of_Z X) (f_of_Z Y) t) in *.
  assert (uv : u * B 32 = B (-21)) by (rewrite u_val, <- bpow_plus; reflexivity). assert (t0 : B (-1020) <= B (-21)) by (apply bpow_le; lia). assert (t2 : B (-1022) <= B (-53)) by (apply bpow_le; lia). change (B (-53)) with u in t2. assert (s21 : B (-21) <= B (-6)) by (apply bpow_le; lia). change (B (-6)) with (/ 64) in s21. pose proof (bpow_gt_0 radix2 (-21)).
  assert (Ee : IZR E = IZR X + r * (IZR Y - IZR X)). { unfold E, X, Y, r. rewrite plus_IZR, !mult_IZR, minus_IZR. field. lra. }
  assert (d : Rabs ((1 - real t) * IZR X + real t * IZR Y - IZR E) <= 2 * B (-21)).
  { rewrite Ee. replace ((1 - real t) * IZR X + real t * IZR Y - (IZR X + r * (IZR Y - IZR X))) with ((real t - r) * (IZR Y - IZR X)) by ring. replace (2 * B (-21)) with (2 * u * B 32) by (rewrite <- uv; ring).
    apply Rabs_prod_le; [|apply Rabs_le; lra]. eapply Rle_trans; [exact et|]. pose proof (Rmult_le_compat_l u r 1 ltac:(lra) ltac:(lra)). lra. }
  assert (ev' : Rabs (real v - IZR E) <= 7 * B (-21)).
  { replace (real v - IZR E) with ((real v - ((1 - real t) * IZR X + real t * IZR Y)) + ((1 - real t) * IZR X + real t * IZR Y - IZR E)) by ring. eapply Rle_trans; [apply Rabs_triang|]. replace (4 * u * B 32) with (4 * B (-21)) in ev by (rewrite <- uv; ring). lra. }
  apply Rabs_le_inv in ev'. assert (e0 : 0 <= IZR E) by (apply IZR_le; lia). assert (e1 : IZR E <= B 32 - 1) by (change (B 32) with (IZR (2 ^ 32)); rewrite <- minus_IZR; apply IZR_le; lia).
  destruct (round_near v fv) as (z & ez & zr & zn). { change (IZR (2 ^ 32)) with (B 32). lra. }
  assert (e20 : / IZR (2 ^ 20) = 2 * B (-21)) by (change (/ IZR (2 ^ 20)) with (B (-20)); change 2 with (B 1); rewrite <- bpow_plus; reflexivity). rewrite e20 in zn. apply Rabs_le_inv in zn.
  rewrite ez. f_equal. apply Z.le_antisymm; apply Z.lt_succ_r; apply lt_IZR; rewrite succ_IZR; lra.
Qed.
Open Scope nat_scope.
Lemma scale64_correct input count factor out : (Z.of_nat factor < 2 ^ 32)%Z -> count <= length input -> 1 <= count -> factor * (count - 1) <= length out ->
  Forall (fun x => 0 <= x /\ x * Z.of_nat factor < Base.two32)%Z input ->
  exists out', times_scale64 input count factor out = Some out' /\ length out' = length out /\
  (forall j, factor * (count - 1) <= j -> nth_error out' j = nth_error out j) /\
  (forall i k x y, S i < count -> k < factor -> nth_error input i = Some x -> nth_error input (S i) = Some y ->
    nth_error out' (factor * i + k) = Some ((Z.of_nat factor - Z.of_nat k) * x + Z.of_nat k * y)%Z).
Proof.
  intros H32 HC H1 HO HF. unfold times_scale64. rewrite slice_some by lia. cbn [bind]. rewrite skipn_O.
  set (temp := map (fun x => u32 (x * Z.of_nat factor)) (firstn count input)).
  assert (HT : forall i x, i < count -> nth_error input i = Some x -> aget temp i = Some (u32 (x * Z.of_nat factor))).
  { intros i x Hi Hx. unfold temp, aget. rewrite nth_error_map, nth_error_firstn by lia. now rewrite Hx. }
  assert (HB : forall i x, nth_error input i = Some x -> (0 <= x /\ x * Z.of_nat factor < Base.two32)%Z).
  { intros i x Hx. eapply Forall_forall in HF; [exact HF|eapply nth_error_In; eauto]. }
  set (P := fun n (o : list Z) => length o = length out /\ (forall j, n <= j -> nth_error o j = nth_error out j) /\
    (forall i k x y, k < factor -> factor * i + k < n -> nth_error input i = Some x -> nth_error input (S i) = Some y ->
      nth_error o (factor * i + k) = Some ((Z.of_nat factor - Z.of_nat k) * x + Z.of_nat k * y)%Z)).
  match goal with |- exists q, for_ 1 count ?body out = _ /\ _ => destruct (for_inv (fun i o => P (factor * (i - 1)) o) body 1 count out) as [o [E HP]] end.
  - lia.
  - unfold P. replace (1 - 1) with 0 by lia. rewrite Nat.mul_0_r. splits; auto. intros; lia.
  - intros i o Hi HP. destruct (nth_error_some input (i - 1) ltac:(lia)) as [x Hx]. destruct (nth_error_some input i ltac:(lia)) as [y Hy].
    destruct (HB _ _ Hx) as [X1 X2]. destruct (HB _ _ Hy) as [Y1 Y2].
    match goal with |- exists q, for_ 0 factor ?body o = _ /\ _ => destruct (for_inv (fun k o => P (factor * (i - 1) + k) o) body 0 factor o) as [o' [E' HP']] end.
    + lia.
    + now rewrite Nat.add_0_r.
    + intros k o1 Hk [I1 [I2 I3]]. rewrite (HT (i - 1) x), (HT i y) by (auto; lia). cbn [bind]. rewrite scale_value64 by (auto; lia). cbn [bind].
      set (v := ((Z.of_nat factor - Z.of_nat k) * x + Z.of_nat k * y)%Z).
      destruct (aset_some o1 (factor * (i - 1) + k) v) as [o2 Eo]; [rewrite I1; nia|]. exists o2. split; [exact Eo|]. unfold P. splits.
      * rewrite (aset_length _ _ _ _ Eo). exact I1.
      * intros j Hj. rewrite (aset_get _ _ _ _ j Eo). bd; try lia. apply I2. lia.
      * intros i1 k1 x1 y1 Hk1 Hn Hx1 Hy1. rewrite (aset_get _ _ _ _ _ Eo). destruct (Nat.eqb_spec (factor * i1 + k1) (factor * (i - 1) + k)) as [EQ|NE].
        -- assert (i1 = i - 1 /\ k1 = k) as [-> ->] by (assert (i1 = i - 1) by (destruct (Nat.lt_trichotomy i1 (i - 1)) as [?|[?|?]]; auto; exfalso; nia); subst; lia).
           replace (S (i - 1)) with i in Hy1 by lia. unfold v. congruence.
        -- apply I3; auto. lia.
    + exists o'. split; [exact E'|]. replace (factor * (S i - 1)) with (factor * (i - 1) + factor) by (replace (S i - 1) with (S (i - 1)) by lia; lia). exact HP'.
  - exists o. destruct HP as [I1 [I2 I3]]. splits; auto. intros i k x y Hi Hk Hx Hy. apply I3; auto. nia.
Qed.
