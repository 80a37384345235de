(** Filtered streams *)
From Coq Require Import ZArith Reals List Bool Lia Lra Psatz.
From Flocq Require Import Core BinarySingleNaN.
From Verif Require Import Base DblModel DblSpec DblProofs Dbl2Proofs ConvolveModel ConvolveSpec FilterModel FilterSpec FilterFinal KerSpec
  DkerModel DkerSpec DkerProofs Dker2Proofs SincModel SincSpec SincProofs DbandModel DbandSpec DbandProofs Dband2Proofs.
Import ListNotations.
Open Scope R_scope.

Section Streams.
Variable d : R.
Variables fcos fsin : f64 -> f64.
Hypothesis libm : libm_near d fcos fsin.
Hypothesis hd : 0 <= d <= / 1000000.
Variable junk : nat -> list f64.
Hypothesis hj : forall n, length (junk n) = n.
Variable enc : f64 -> list Z.
Variable dec : list Z -> f64.
Hypothesis code : encoding f64 enc dec.
Variable junkb : nat -> list Z.
Hypothesis hjb : forall n, length (junkb n) = n.
Notation ir_f := (sinc_ir_f64 fcos fsin junk dec).
Notation E := (kernel_error d).

Lemma run_same call f a inputs : (forall input os out h, call input os out h = convolution_filter f64 fzero fadd fmul ir_f (fun _ => true) junk junkb input f a (length a) os out h) ->
  forall os h, run_inputs junk call inputs os h = run_calls f64 fzero fadd fmul ir_f (fun _ => true) junk junkb (map (fun x => {| c_in := x; c_f := f; c_args := a |}) inputs) os h.
Proof.
  intros hc. induction inputs as [|x inputs IH]; intros os h; [reflexivity|]. cbn [run_inputs map run_calls c_in c_f c_args]. rewrite hc.
  destruct (convolution_filter _ _ _ _ _ _ _ _ _ _ _ _ _ _ _) as [[[[r out] os'] h']|]; cbn [bind]; [|reflexivity]. rewrite IH. reflexivity.
Qed.
Lemma stream call f a ir k e g m inputs h0 : (forall input os out h, call input os out h = convolution_filter f64 fzero fadd fmul ir_f (fun _ => true) junk junkb input f a (length a) os out h) ->
  ir_f f a = Some ir -> near_kernel e ir k -> (forall i, (i < length ir)%nat -> Rabs (real (nth i ir fzero)) <= g) -> 0 <= e -> 0 <= g -> (2 <= length ir)%nat -> (Z.of_nat (length ir) <= 2 ^ 37)%Z -> g <= IZR (2 ^ 40) ->
  Forall (fun x => finite x /\ Rabs (real x) <= m) (concat inputs) -> 0 <= m <= IZR (2 ^ 900) ->
  exists outs st h', run_inputs junk call inputs None h0 = Some (outs, st, h') /\ Forall (fun r => fst r = Ok tt) outs /\ filtered (filter_error m e g (length ir)) (concat inputs) k (concat (map snd outs)).
Proof.
  intros hc hi hn hg he hg0 h2 h37 hgm hx hm. destruct (filter_segmentation f64 fzero fadd fmul ir_f junk junkb h0 f a ir inputs hj hjb hi) as (outs & st & h' & e1 & e2 & e3); [intros ->; cbn in h2; lia|].
  exists outs, st, h'. split; [rewrite (run_same call f a inputs hc); exact e1|]. split; [exact e2|]. rewrite Forall_forall in hx.
  assert (hN : INR (length ir) <= IZR (2 ^ 37)) by (rewrite INR_IZR_INZ; apply IZR_le; exact h37).
  apply (near_filtered _ ir); auto; try (apply Forall_forall; intros x h; apply (hx x h)); try apply hm.
  - assert (IZR (2 ^ 37) <= IZR (2 ^ 50)) by (apply IZR_le; intro; discriminate). lra.
  - apply Rle_trans with (IZR (2 ^ 37) * (IZR (2 ^ 900) * IZR (2 ^ 40))).
    + apply Rmult_le_compat; try apply pos_INR; auto; [apply Rmult_le_pos; lra|]. apply Rmult_le_compat; lra.
    + rewrite <- !mult_IZR. apply IZR_le. intro; discriminate.
Qed.

Lemma len37 len : Nat.odd len = true -> (1 < len)%nat -> E len <= 1 / 2 -> (Z.of_nat len <= 2 ^ 36)%Z.
Proof. intros h1 h2 h3. apply (error_facts d hd len h1 h2 h3). Qed.
Lemma lp_hp_stream c t b len m inputs h0 : ir_length64 t = Some len -> (1 < len)%nat -> E len <= 1 / 2 -> finite c -> 0 <= real c <= 1 / 2 ->
  Forall (fun x => finite x /\ Rabs (real x) <= m) (concat inputs) -> 0 <= m <= IZR (2 ^ 900) ->
  exists k outs st h', (if (b =? 0)%Z then low_pass_kernel (real c) len k else high_pass_kernel (real c) len k) /\
    run_inputs junk (fun input => windowed_sinc_lp_hp64 fcos fsin junk enc dec junkb input c t b) inputs None h0 = Some (outs, st, h') /\ Forall (fun r => fst r = Ok tt) outs /\
    filtered (filter_error m (4 * E len) 4 len) (concat inputs) k (concat (map snd outs)).
Proof.
  intros ht hl he fc hc hx hm. destruct (kernel_facts d fcos fsin libm hd junk hj (negb (b =? 0)%Z) c t len ht hl he fc hc) as (h & k & e & hk & nk & a1 & a2 & _ & a3).
  destruct (lp_hp_args_ok f64 real enc dec junkb code hjb c t b) as (a & ea & la & s1 & s2 & s3). destruct (length_odd t len ht) as [ho _]. pose proof (len37 len ho hl he) as h36.
  destruct (stream (fun input => windowed_sinc_lp_hp64 fcos fsin junk enc dec junkb input c t b) 0 a h k (4 * E len) 4 m inputs h0) as (outs & st & h' & q1 & q2 & q3); auto; try lra; try lia.
  - intros input os out hp. unfold windowed_sinc_lp_hp64. rewrite ea, la. reflexivity.
  - unfold sinc_ir_f64. cbn [Nat.eqb]. unfold lp_hp_ir_f64. rewrite s1. cbn [bind]. rewrite s2. cbn [bind]. rewrite s3. cbn [bind]. rewrite (proj2 (code c)), (proj2 (code t)). exact e.
  - rewrite a1. intros i hi. destruct (a3 i hi) as (_ & _ & z). destruct (b =? 0)%Z; cbn [negb] in z; lra.
  - pose proof (E_pos d hd len). lra.
  - exists k, outs, st, h'. rewrite a1 in q3. splits; auto. destruct (b =? 0)%Z; exact hk.
Qed.

Variables (cl ch tl th : f64) (nl nh : nat).
Hypothesis hl : ir_length64 tl = Some nl.
Hypothesis hh : ir_length64 th = Some nh.
Hypothesis l1 : (1 < nl)%nat.
Hypothesis h1 : (1 < nh)%nat.
Hypothesis el : E nl <= 1 / 2.
Hypothesis eh : E nh <= 1 / 2.
Hypothesis fl : finite cl.
Hypothesis fh : finite ch.
Hypothesis rl : 0 < real cl <= 1 / 2.
Hypothesis rh : 0 <= real ch < 1 / 2.
Lemma bp_br_stream b m inputs h0 : Forall (fun x => finite x /\ Rabs (real x) <= m) (concat inputs) -> 0 <= m <= IZR (2 ^ 900) ->
  exists k outs st h', (if (b =? 0)%Z then band_pass_kernel (real cl) (real ch) nl nh k else band_reject_kernel (real cl) (real ch) nl nh k) /\
    run_inputs junk (fun input => windowed_sinc_bp_br64 fcos fsin junk enc dec junkb input cl ch tl th b) inputs None h0 = Some (outs, st, h') /\ Forall (fun r => fst r = Ok tt) outs /\
    filtered (if (b =? 0)%Z then filter_error m (pass_error d nl nh) (15 * INR (Nat.min nl nh)) (nl + nh - 1) else filter_error m (reject_error d nl nh) 8 (Nat.max nl nh)) (concat inputs) k (concat (map snd outs)).
Proof.
  intros hx hm. destruct (bp_br_args_ok f64 real enc dec junkb code hjb cl ch tl th b) as (a & ea & la & s1 & s2 & s3 & s4 & s5).
  destruct (length_odd tl nl hl) as [ol _]. destruct (length_odd th nh hh) as [oh _]. pose proof (len37 nl ol l1 el) as n1. pose proof (len37 nh oh h1 eh) as n2. pose proof u_pos as hu. pose proof (E_pos d hd nl). pose proof (E_pos d hd nh).
  assert (ec : forall input os out hp, windowed_sinc_bp_br64 fcos fsin junk enc dec junkb input cl ch tl th b os out hp = convolution_filter f64 fzero fadd fmul ir_f (fun _ => true) junk junkb input 1 a (length a) os out hp).
  { intros input os out hp. unfold windowed_sinc_bp_br64. rewrite ea, la. reflexivity. }
  assert (ek : ir_f 1 a = bp_br_ir64 fcos fsin junk cl ch tl th (negb (b =? 0)%Z)).
  { unfold sinc_ir_f64. cbn [Nat.eqb]. unfold bp_br_ir_f64. rewrite s1. cbn [bind]. rewrite s2. cbn [bind]. rewrite s3. cbn [bind]. rewrite s4. cbn [bind]. rewrite s5. cbn [bind].
    rewrite (proj2 (code cl)), (proj2 (code ch)), (proj2 (code tl)), (proj2 (code th)). reflexivity. }
  destruct (b =? 0)%Z; cbn [negb] in ek.
  - destruct (pass_near d fcos fsin libm hd junk hj cl ch tl th nl nh hl hh l1 h1 el eh fl fh rl rh) as (h & k & e & hk & nk & a1 & a2). rewrite e in ek.
    assert (hn : INR (Nat.min nl nh) <= IZR (2 ^ 36)) by (rewrite INR_IZR_INZ; apply IZR_le; lia). pose proof (pos_INR (Nat.min nl nh)) as hn0.
    assert (IZR (2 ^ 36) = 68719476736) by reflexivity. assert (IZR (2 ^ 40) = 1099511627776) by reflexivity.
    destruct (stream _ 1 a h k (pass_error d nl nh) (15 * INR (Nat.min nl nh)) m inputs h0 ec ek nk a2) as (outs & st & h' & q1 & q2 & q3); auto; try lra; try lia.
    + unfold pass_error. fold u. apply Rmult_le_pos; [exact hn0|]. assert (0 <= INR (Nat.min nl nh) * u) by (apply Rmult_le_pos; lra). lra.
    + exists k, outs, st, h'. rewrite a1 in q3. splits; auto.
  - destruct (reject_near d fcos fsin libm hd junk hj cl ch tl th nl nh hl hh l1 h1 el eh fl fh rl rh) as (h & k & e & hk & nk & a1 & a2). rewrite e in ek.
    assert (IZR (2 ^ 40) = 1099511627776) by reflexivity.
    destruct (stream _ 1 a h k (reject_error d nl nh) 8 m inputs h0 ec ek nk a2) as (outs & st & h' & q1 & q2 & q3); auto; try lra; try lia.
    + unfold reject_error. fold u. lra.
    + exists k, outs, st, h'. rewrite a1 in q3. splits; auto.
Qed.
End Streams.

(** ** cutoffs outside of the range *)
Lemma band_outside fcos fsin junk cl ch tl th (b : bool) : finite cl -> finite ch ->
  (real cl <= 0 -> 1 / 2 <= real ch -> bp_br_ir64 fcos fsin junk cl ch tl th b = Some [if b then fzero else f_of_Z 1]) /\
  (real cl <= 0 -> real ch < 1 / 2 -> bp_br_ir64 fcos fsin junk cl ch tl th b = lp_hp_ir64 fcos fsin junk ch th b) /\
  (0 < real cl -> 1 / 2 <= real ch -> bp_br_ir64 fcos fsin junk cl ch tl th b = lp_hp_ir64 fcos fsin junk cl tl (negb b)).
Proof.
  intros fl fh. unfold bp_br_ir64. destruct fhalf_real as [f e]. rewrite (fle_ok cl fzero fl eq_refl), (fle_ok fhalf ch f fh), e. change (real fzero) with 0.
  splits; intros h1 h2.
  - rewrite !Rle_bool_true by lra. destruct b; reflexivity.
  - rewrite Rle_bool_true by lra. rewrite Rle_bool_false by lra. destruct b; reflexivity.
  - rewrite Rle_bool_false by lra. rewrite Rle_bool_true by lra. destruct b; reflexivity.
Qed.
