(** The band kernels and the streams *)
From Coq Require Import ZArith Reals List Bool Lia Lra Psatz.
From Flocq Require Import Core BinarySingleNaN.
From Verif Require Import Base DblModel DblSpec DblProofs Dbl2Proofs DlineProofs ConvolveModel ConvolveSpec ConvolveFinal FilterModel FilterSpec FilterFinal KerSpec KerProofs Ker2Proofs KerFejer CmodProofs
  DfftModel DfftProofs DkerModel DkerSpec DkerProofs Dker2Proofs DconvSpec DconvProofs SincModel SincSpec SincProofs DbandModel DbandSpec DbandProofs.
Import ListNotations.
Open Scope R_scope.

(** ** samples of exact kernels *)
Lemma low_le c len k i : 0 <= c <= 1 / 2 -> Nat.odd len = true -> (1 < len)%nat -> low_pass_kernel c len k -> (i < len)%nat -> Rabs (nth i k 0) <= 1.
Proof.
  intros hc ho hl (lk & raw & hr & hg & hk) hi. pose proof (range_gain c len raw hc ho hl hr) as h1. rewrite hk by exact hi. destruct hr as [lr hr]. destruct (hr i hi) as (s & hs & ->).
  fold (black i len). unfold Rdiv at 1. rewrite Rabs_mult. rewrite <- (Rmult_1_l 1). apply Rmult_le_compat; try apply Rabs_pos.
  - rewrite <- (Rmult_1_l 1). apply Rabs_prod_le; [apply black_range|apply (sinc_le _ _ hs)].
  - rewrite Rabs_right; [|apply Rle_ge; left; apply Rinv_0_lt_compat; lra]. rewrite <- Rinv_1. apply Rinv_le_contravar; lra.
Qed.
Lemma high_le c len k i : 0 <= c <= 1 / 2 -> Nat.odd len = true -> (1 < len)%nat -> high_pass_kernel c len k -> (i < len)%nat -> Rabs (nth i k 0) <= 2.
Proof.
  intros hc ho hl (lk & lp & hlp & hk) hi. rewrite hk by exact hi. pose proof (low_le c len lp i hc ho hl hlp hi) as h. apply Rabs_le_inv in h. apply Rabs_le. unfold impulse. destruct (_ =? _)%nat; lra.
Qed.

Section Band.
Variable d : R.
Variables fcos fsin : f64 -> f64.
Hypothesis libm : libm_near d fcos fsin.
Hypothesis hd : 0 <= d <= / 1000000.
Variable junk : nat -> list f64.
Hypothesis hj : forall n, length (junk n) = n.
Notation E := (kernel_error d).
Notation kernel c t hp := (lp_hp_ir64 fcos fsin junk c t hp).

Lemma E_pos len : 0 <= E len.
Proof.
  unfold kernel_error. pose proof u_pos as hu. fold u. pose proof (pos_INR len) as hn. assert (0 <= INR len * (3 * d + 27 * u)) by (apply Rmult_le_pos; lra).
  assert (0 <= INR len * INR len * u) by (apply Rmult_le_pos; [apply Rmult_le_pos|]; lra). lra.
Qed.
(** a kernel with all that is needed about it *)
Lemma kernel_facts (hp : bool) c t len : ir_length64 t = Some len -> (1 < len)%nat -> E len <= 1 / 2 -> finite c -> 0 <= real c <= 1 / 2 ->
  exists h k, kernel c t hp = Some h /\ (if hp then high_pass_kernel (real c) len k else low_pass_kernel (real c) len k) /\ near_kernel (4 * E len) h k /\ length h = len /\ length k = len /\
    (forall i, (i < len)%nat -> Rabs (nth i k 0) <= if hp then 2 else 1) /\ (forall i, (i < len)%nat -> finite (nth i h fzero) /\ Rabs (real (nth i h fzero) - nth i k 0) <= 4 * E len /\ Rabs (real (nth i h fzero)) <= if hp then 4 else 3).
Proof.
  intros ht hl he fc hc. destruct (kernel_near d fcos fsin libm hd junk hj hp c t len ht hl he fc hc) as (h & k & e & hk & nk & _). exists h, k. destruct (length_odd t len ht) as [ho _].
  assert (lk : length k = len) by (destruct hp; apply hk). assert (lh : length h = len) by (destruct nk; lia).
  assert (b : forall i, (i < len)%nat -> Rabs (nth i k 0) <= if hp then 2 else 1) by (intros i hi; destruct hp; [apply (high_le (real c) len)|apply (low_le (real c) len)]; auto).
  splits; auto. intros i hi. destruct (proj2 nk i ltac:(lia)) as [f a]. splits; auto. specialize (b i hi). pose proof (near_bound _ _ _ _ a b). destruct hp; lra.
Qed.

(** ** band reject *)
Lemma add_centered_near out over ko kv eo ev mo mv : length out = length ko -> length over = length kv -> Nat.odd (length out) = true -> Nat.odd (length over) = true -> (length over <= length out)%nat ->
  0 <= ev -> mo <= 4 -> mv <= 4 -> 0 <= mo -> 0 <= mv ->
  (forall i, (i < length out)%nat -> finite (nth i out fzero) /\ Rabs (real (nth i out fzero) - nth i ko 0) <= eo /\ Rabs (real (nth i out fzero)) <= mo) ->
  (forall i, (i < length over)%nat -> finite (nth i over fzero) /\ Rabs (real (nth i over fzero) - nth i kv 0) <= ev /\ Rabs (real (nth i over fzero)) <= mv) ->
  exists h k, add_centered64 out over = Some h /\ centered_sum ko kv k /\ near_kernel (eo + ev + 8 * u) h k.
Proof.
  intros lo lv ho hv hle hev h1 h2 h3 h4 fo fv. apply Nat.odd_spec in ho, hv. destruct ho as [p hp], hv as [q hq]. unfold add_centered64. set (n := length out) in *. set (m := length over) in *.
  replace ((n - 1) / 2 - (m - 1) / 2)%nat with (p - q)%nat by (rewrite hp, hq; replace (2 * p + 1 - 1)%nat with (p * 2)%nat by lia; replace (2 * q + 1 - 1)%nat with (q * 2)%nat by lia; rewrite !Nat.div_mul; lia).
  set (start := (p - q)%nat) in *.
  destruct (for_inv (fun j o => length o = n /\ forall i, (i < n)%nat -> nth_error o i = Some (if (start <=? i)%nat && (i <? j)%nat then fadd (nth (i - start) over fzero) (nth i out fzero) else nth i out fzero))
    (fun i out => x <- aget over (i - start) ;; y <- aget out i ;; aset out i (fadd x y)) start (m + start) out) as [o [e (g1 & g2)]].
  - lia.
  - split; [reflexivity|]. intros i hi. rewrite (nth_error_of_nth out i fzero) by exact hi. f_equal. destruct (Nat.leb_spec start i), (Nat.ltb_spec i start); cbn [andb]; try lia; reflexivity.
  - intros i o hi (g1 & g2). unfold aget. rewrite (nth_error_of_nth over (i - start) fzero) by (fold m; lia). cbn [bind]. rewrite g2 by lia. cbn [bind].
    match goal with |- context [aset o i ?v] => destruct (aset_some o i v) as [o' e]; [lia|] end. exists o'. split; [exact e|]. split; [rewrite (aset_length _ _ _ _ e); exact g1|].
    intros j hj'. rewrite (aset_get _ _ _ _ j e). destruct (Nat.eqb_spec j i) as [->|ne].
    + f_equal. destruct (Nat.leb_spec start i), (Nat.ltb_spec i i), (Nat.ltb_spec i (S i)); cbn [andb]; try lia. reflexivity.
    + rewrite g2 by exact hj'. f_equal. destruct (Nat.leb_spec start j), (Nat.ltb_spec j i), (Nat.ltb_spec j (S i)); cbn [andb]; try lia; reflexivity.
  - set (f := fun i => nth i ko 0 + (if (start <=? i)%nat && (i <? start + m)%nat then nth (i - start) kv 0 else 0)). exists o, (map f (seq 0 n)). split; [exact e|].
    assert (lk : length (map f (seq 0 n)) = n) by (rewrite map_length, seq_length; reflexivity). split.
    + exists start. rewrite <- lo, <- lv, lk. splits; auto; [lia|]. intros i hi. rewrite nth_map_seq by exact hi. reflexivity.
    + split; [lia|]. rewrite lk. intros i hi. rewrite nth_map_seq by exact hi. rewrite (nth_error_nth_eq _ _ _ fzero (g2 i hi)). unfold f. destruct (fo i hi) as (f1 & a1 & b1). pose proof u_pos as hu.
      rewrite (Nat.add_comm m). destruct (Nat.leb_spec start i), (Nat.ltb_spec i (start + m)); cbn [andb].
      * destruct (fv (i - start)%nat ltac:(lia)) as (f2 & a2 & b2). rewrite (Rplus_comm (nth i ko 0)). destruct (fadd_near _ _ _ _ _ _ 8 f2 f1 a2 a1) as [f3 a3]; try lra; [eapply Rle_trans; [apply Rabs_triang|]; lra|].
        split; [exact f3|]. lra.
      * split; [exact f1|]. rewrite Rplus_0_r. lra.
      * split; [exact f1|]. rewrite Rplus_0_r. lra.
      * split; [exact f1|]. rewrite Rplus_0_r. lra.
Qed.

Variables (cl ch tl th : f64) (nl nh : nat).
Hypothesis hl : ir_length64 tl = Some nl.
Hypothesis hh : ir_length64 th = Some nh.
Hypothesis l1 : (1 < nl)%nat.
Hypothesis h1 : (1 < nh)%nat.
Hypothesis el : E nl <= 1 / 2.
Hypothesis eh : E nh <= 1 / 2.
Hypothesis fl : finite cl.
Hypothesis fh : finite ch.
Hypothesis rl : 0 < real cl <= 1 / 2.
Hypothesis rh : 0 <= real ch < 1 / 2.

Lemma inside : fle cl fzero = false /\ fle fhalf ch = false.
Proof.
  destruct fhalf_real as [f e]. split.
  - rewrite (fle_ok cl fzero fl eq_refl). apply Rle_bool_false. change (real fzero) with 0. lra.
  - rewrite (fle_ok _ _ f fh). apply Rle_bool_false. rewrite e. lra.
Qed.
Lemma reject_near : exists h k, bp_br_ir64 fcos fsin junk cl ch tl th true = Some h /\ band_reject_kernel (real cl) (real ch) nl nh k /\ near_kernel (reject_error d nl nh) h k /\ length h = Nat.max nl nh /\
  forall i, (i < length h)%nat -> Rabs (real (nth i h fzero)) <= 8.
Proof.
  destruct inside as [i1 i2]. unfold bp_br_ir64. rewrite i1, i2. destruct (kernel_facts false cl tl nl hl l1 el fl ltac:(lra)) as (lp & kl & e1 & k1 & n1 & a1 & b1 & c1 & d1).
  destruct (kernel_facts true ch th nh hh h1 eh fh ltac:(lra)) as (hp & kh & e2 & k2 & n2 & a2 & b2 & c2 & d2). rewrite e1. cbn [bind]. rewrite e2. cbn [bind].
  destruct (length_odd tl nl hl) as [ol _]. destruct (length_odd th nh hh) as [oh _]. pose proof u_pos as hu. assert (hu1 : u <= / 1000000000000000) by apply u_tiny.
  assert (done : forall h k, (length k = Nat.max nl nh -> True) -> near_kernel (reject_error d nl nh) h k -> length k = Nat.max nl nh -> (forall i, (i < length k)%nat -> Rabs (nth i k 0) <= 3) ->
    near_kernel (reject_error d nl nh) h k /\ length h = Nat.max nl nh /\ forall i, (i < length h)%nat -> Rabs (real (nth i h fzero)) <= 8).
  { intros h k _ hn hk hb. split; [exact hn|]. split; [destruct hn; lia|]. intros i hi. destruct hn as [q1 q2]. rewrite q1 in hi. destruct (q2 i hi) as [_ a]. specialize (hb i hi). pose proof (near_bound _ _ _ _ a hb) as z.
    unfold reject_error in z. fold u in z. lra. }
  assert (sum3 : forall ko kv k mo mv, (forall i, (i < length ko)%nat -> Rabs (nth i ko 0) <= mo) -> (forall i, (i < length kv)%nat -> Rabs (nth i kv 0) <= mv) -> 0 <= mv -> mo + mv <= 3 -> centered_sum ko kv k ->
    forall i, (i < length k)%nat -> Rabs (nth i k 0) <= 3).
  { intros ko kv k mo mv ho hv hm hs (s & q1 & q2 & q3) i hi. rewrite q3 by lia. eapply Rle_trans; [apply Rabs_triang|]. assert (Rabs (nth i ko 0) <= mo) by (apply ho; lia).
    destruct (Nat.leb_spec s i), (Nat.ltb_spec i (s + length kv)); cbn [andb]; try (rewrite Rabs_R0; lra). assert (Rabs (nth (i - s) kv 0) <= mv) by (apply hv; lia). lra. }
  rewrite a1, a2. destruct (Nat.ltb_spec nh nl) as [lt|ge].
  - destruct (add_centered_near lp hp kl kh (4 * E nl) (4 * E nh) 3 4) as (h & k & e & hs & hn); rewrite ?a1, ?a2, ?b1, ?b2; auto; try lra; try lia; [pose proof (E_pos nh); lra|].
    exists h, k. split; [exact e|]. split; [exists kl, kh; rewrite (proj2 (Nat.ltb_lt nh nl) lt); auto|]. apply done; auto.
    + replace (reject_error d nl nh) with (4 * E nl + 4 * E nh + 8 * u) by (unfold reject_error; fold u; ring). exact hn.
    + destruct hs as (s & q1 & q2 & _). lia.
    + apply (sum3 kl kh k 1 2); rewrite ?b1, ?b2; auto; lra.
  - destruct (add_centered_near hp lp kh kl (4 * E nh) (4 * E nl) 4 3) as (h & k & e & hs & hn); rewrite ?a1, ?a2, ?b1, ?b2; auto; try lra; try lia; [pose proof (E_pos nl); lra|].
    exists h, k. split; [exact e|]. split; [exists kl, kh; rewrite (proj2 (Nat.ltb_ge nh nl) ge); auto|]. apply done; auto.
    + replace (reject_error d nl nh) with (4 * E nh + 4 * E nl + 8 * u) by (unfold reject_error; fold u; ring). exact hn.
    + destruct hs as (s & q1 & q2 & _). lia.
    + apply (sum3 kh kl k 2 1); rewrite ?b1, ?b2; auto; lra.
Qed.

(** ** band pass *)
Lemma pass_near : exists h k, bp_br_ir64 fcos fsin junk cl ch tl th false = Some h /\ band_pass_kernel (real cl) (real ch) nl nh k /\ near_kernel (pass_error d nl nh) h k /\ length h = (nl + nh - 1)%nat /\
  forall i, (i < length h)%nat -> Rabs (real (nth i h fzero)) <= 15 * INR (Nat.min nl nh).
Proof.
  destruct inside as [i1 i2]. unfold bp_br_ir64. rewrite i1, i2. destruct (kernel_facts true cl tl nl hl l1 el fl ltac:(lra)) as (hp & kh & e2 & k2 & n2 & a2 & b2 & c2 & d2).
  destruct (kernel_facts false ch th nh hh h1 eh fh ltac:(lra)) as (lp & kl & e1 & k1 & n1 & a1 & b1 & c1 & d1). rewrite e2. cbn [bind]. rewrite e1. cbn [bind].
  destruct (length_odd tl nl hl) as [ol _]. destruct (length_odd th nh hh) as [oh _]. pose proof u_pos as hu. assert (hu1 : u <= / 1000000000000000) by apply u_tiny.
  destruct (error_facts d hd nl ol l1 el) as (x1 & x2 & _). destruct (error_facts d hd nh oh h1 eh) as (y1 & y2 & _).
  assert (F1 : Forall finite lp) by (apply Forall_nth_all with (d := fzero); intros i hi; apply d1; lia). assert (F2 : Forall finite hp) by (apply Forall_nth_all with (d := fzero); intros i hi; apply d2; lia).
  assert (M1 : Forall (fun v => Rabs (real v) <= 3) lp) by (apply Forall_nth_all with (d := fzero); intros i hi; apply d1; lia).
  set (n := Nat.min nl nh). assert (en : Nat.min (length lp) (length hp) = n) by (rewrite a1, a2; unfold n; lia). assert (hn3 : 3 <= INR n) by (unfold n; destruct (Nat.min_spec nl nh) as [[_ ->]|[_ ->]]; assumption).
  assert (hnz : INR n <= IZR (2 ^ 36)) by (rewrite INR_IZR_INZ; apply IZR_le; unfold n; lia). assert (h36 : IZR (2 ^ 36) = 68719476736) by reflexivity.
  assert (mag : forall i, 0 <= magnitude lp hp i <= INR n * (3 * 4)) by (intros i; rewrite <- en; apply magnitude_le; auto; try lra; intros j hj'; apply d2; lia).
  assert (hmax : 68719476736 * 12 <= IZR (2 ^ 998)) by (change (68719476736 * 12) with (IZR 68719476736 * IZR 12); rewrite <- mult_IZR; apply IZR_le; intro; discriminate).
  destruct (one_ok lp hp (length lp + length hp - 1) ltac:(lia) F1 F2) as (out & e & lo & ho).
  { rewrite en. assert (IZR (2 ^ 36) <= IZR (2 ^ 50)) by (apply IZR_le; intro; discriminate). lra. }
  { intros i. destruct (mag i). lra. }
  rewrite e. set (k := map (csum kl kh) (seq 0 (nh + nl - 1))). assert (lk : length k = (nh + nl - 1)%nat) by (unfold k; rewrite map_length, seq_length; reflexivity).
  assert (ek : forall i, (i < nh + nl - 1)%nat -> nth i k 0 = csum kl kh i) by (intros i hi; unfold k; rewrite nth_map_seq by exact hi; reflexivity).
  rewrite a1, a2 in lo, ho.
  assert (nu : INR n * u <= / 1000) by (apply Rle_trans with (68719476736 * / 1000000000000000); [apply Rmult_le_compat; lra|lra]).
  assert (near : near_kernel (pass_error d nl nh) out k).
  { split; [lia|]. rewrite lk. intros i hi. destruct (ho i ltac:(lia)) as (v & ev & [fv av]). rewrite (nth_error_nth_eq _ _ _ fzero ev). split; [exact fv|]. rewrite ek by exact hi.
    assert (z : Rabs (exact_sample lp hp i - csum kl kh i) <= INR n * (12 * (E nl + E nh))).
    { unfold exact_sample. assert (en' : n = Nat.min (length (map real lp)) (length (map real hp))) by (rewrite !map_length; auto). rewrite en'. apply csum_near; rewrite ?map_length; try lia.
      - pose proof (E_pos nl). pose proof (E_pos nh). lra.
      - intros p q hp' hq. rewrite !nth_real by assumption. destruct (d1 p ltac:(lia)) as (_ & p1 & p2). destruct (d2 q ltac:(lia)) as (_ & q1 & q2). specialize (c2 q ltac:(lia)). cbn [negb] in *.
        replace (real (nth p lp fzero) * real (nth q hp fzero) - nth p kl 0 * nth q kh 0) with (real (nth p lp fzero) * (real (nth q hp fzero) - nth q kh 0) + (real (nth p lp fzero) - nth p kl 0) * nth q kh 0) by ring.
        eapply Rle_trans; [apply Rabs_triang|]. assert (Rabs (real (nth p lp fzero) * (real (nth q hp fzero) - nth q kh 0)) <= 3 * (4 * E nl)) by (apply Rabs_prod_le; assumption).
        assert (Rabs ((real (nth p lp fzero) - nth p kl 0) * nth q kh 0) <= 4 * E nh * 2) by (apply Rabs_prod_le; assumption). pose proof (E_pos nh). lra. }
    unfold error_bound in av. rewrite en in av. fold u in av. eapply Rle_trans; [apply (via _ _ _ _ _ av z)|]. unfold pass_error. fold n. fold u. destruct (mag i) as [m1 m2].
    assert (ht : / IZR (2 ^ 1022) <= u) by (unfold u, unit_roundoff; apply Rinv_le_contravar; [apply IZR_lt; reflexivity|apply IZR_le; intro; discriminate]).
    assert (q1 : (2 * INR n + 2) * u * magnitude lp hp i <= 3 * INR n * u * (INR n * (3 * 4))) by (apply Rmult_le_compat; [apply Rmult_le_pos; lra|lra|apply Rmult_le_compat_r; lra|lra]).
    assert (q2 : 2 * INR n * / IZR (2 ^ 1022) <= 2 * INR n * u) by (apply Rmult_le_compat_l; lra).
    assert (q3 : 2 * INR n * u <= 4 * INR n * INR n * u). { apply Rmult_le_compat_r; [lra|]. rewrite Rmult_assoc. assert (INR n * 1 <= INR n * INR n) by (apply Rmult_le_compat_l; lra). lra. } lra. }
  exists out, k. splits; auto.
  - exists kl, kh. splits; auto. split; [rewrite b1, b2; exact lk|]. rewrite lk. exact ek.
  - lia.
  - intros i hi. destruct near as [_ near]. destruct (near i ltac:(lia)) as [_ a]. rewrite ek in a by lia. assert (b : Rabs (csum kl kh i) <= INR n * 2).
    { assert (en' : n = Nat.min (length kl) (length kh)) by (rewrite b1, b2; unfold n; lia). rewrite en'. apply csum_le; [lra|]. rewrite b1, b2. intros p q hp' hq. rewrite <- (Rmult_1_l 2). apply Rabs_prod_le; [apply (c1 p hp')|apply (c2 q hq)]. }
    eapply Rle_trans; [apply (near_bound _ _ _ _ a b)|]. unfold pass_error. fold n. fold u.
    assert (INR n * (12 * (E nl + E nh) + 40 * INR n * u) <= INR n * 13) by (apply Rmult_le_compat_l; lra). lra.
Qed.
End Band.
