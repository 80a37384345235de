From Coq Require Import Reals Lra.
From Verif Require Import Base ConvolveModel ConvolveSpec ConvolveProofs ConvolveFinal KerModel KerSpec KerProofs.
Open Scope R_scope.

(** ** low pass and high pass *)
Definition raw_gain (fc : R) (len : nat) : R := rsumf len (raw fc len).
Lemma lp_exact junk fc t len : (forall n, length (junk n) = n) -> ir_length t = Some len -> (1 < len)%nat -> raw_gain fc len <> 0 ->
  exists h, lp_hp_ir junk fc t false = Some h /\ length h = len /\ forall i, (i < len)%nat -> nth i h 0 = raw fc len i / raw_gain fc len.
Proof.
  intros hj hl h1 hg. unfold lp_hp_ir. rewrite hl. cbn [bind]. destruct (Nat.eqb_spec len 1); [lia|]. cbn [negb need bind].
  destruct (loop_set (fun i => window_blackman (INR i) len * sinc (2 * fc * (INR i - (INR len - 1) / 2))) (junk len) len 0 (eq_sym (hj len))) as (a & e & l1 & k1).
  rewrite e. cbn [bind]. rewrite rsum_correct by (auto; lia). cbn [bind].
  assert (hga : gain a = raw_gain fc len) by (unfold gain, raw_gain; rewrite l1; apply rsumf_ext; exact k1). rewrite hga.
  destruct (Req_EM_T (raw_gain fc len) 0); [contradiction|].
  destruct (loop_mod (fun x => x / raw_gain fc len) a len 0 (eq_sym l1)) as (b & e' & l2 & k2). rewrite e'. cbn [bind]. exists b. splits; auto.
  intros i hi. rewrite k2, k1 by exact hi. reflexivity.
Qed.
Lemma hp_exact junk fc t len : (forall n, length (junk n) = n) -> ir_length t = Some len -> (1 < len)%nat -> (Z.of_nat len < two32)%Z -> raw_gain fc len <> 0 ->
  exists h, lp_hp_ir junk fc t true = Some h /\ length h = len /\ forall i, (i < len)%nat -> nth i h 0 = impulse len i - raw fc len i / raw_gain fc len.
Proof.
  intros hj hl h1 hm hg. destruct (lp_exact junk fc t len hj hl h1 hg) as (b & e & l1 & k1).
  assert (e2 : lp_hp_ir junk fc t true = spectral_inversion b len).
  { unfold lp_hp_ir in *. rewrite hl in *. cbn [bind] in *. destruct (need (negb (len =? 1)%nat)); [|discriminate]. cbn [bind] in *.
    destruct (for_ 0 len _ (junk len)); [|discriminate]. cbn [bind] in *. destruct (rsum l len); [|discriminate]. cbn [bind] in *. destruct (Req_EM_T r 0); [discriminate|].
    destruct (for_ 0 len _ l); [|discriminate]. cbn [bind] in *. injection e as ->. reflexivity. }
  rewrite e2. rewrite <- l1. destruct (inversion_correct b) as (h & e3 & l2 & k2); [lia|lia|]. exists h. splits; auto. intros i hi. rewrite k2 by exact hi. rewrite k1 by lia. rewrite l1. reflexivity.
Qed.
Lemma low_pass_iff fc len h : low_pass_kernel fc len h <-> raw_gain fc len <> 0 /\ length h = len /\ forall i, (i < len)%nat -> nth i h 0 = raw fc len i / raw_gain fc len.
Proof.
  split.
  - intros (hl & r & (h1 & h2) & h3 & h4).
    assert (eg : gain r = raw_gain fc len) by (unfold gain, raw_gain; rewrite h1; apply rsumf_ext; intros i hi; apply raw_unique; auto).
    rewrite eg in *. splits; auto. intros i hi. rewrite h4 by exact hi. f_equal. apply raw_unique. auto.
  - intros (hg & hl & hn). split; [exact hl|]. exists (map (raw fc len) (seq 0 len)).
    assert (hlen : length (map (raw fc len) (seq 0 len)) = len) by (rewrite map_length, seq_length; reflexivity).
    assert (hnth : forall i, (i < len)%nat -> nth i (map (raw fc len) (seq 0 len)) 0 = raw fc len i).
    { intros i hi. rewrite (nth_indep _ 0 (raw fc len 0%nat)) by lia. rewrite (map_nth (raw fc len)). rewrite seq_nth by exact hi. reflexivity. }
    assert (eg : gain (map (raw fc len) (seq 0 len)) = raw_gain fc len) by (unfold gain, raw_gain; rewrite hlen; apply rsumf_ext; exact hnth).
    rewrite eg. split; [split; [exact hlen|]|split; [exact hg|]]; intros i hi; rewrite hnth by exact hi; [apply raw_spec|auto].
Qed.
Lemma raw_sum_zero_none junk fc t hp len : (forall n, length (junk n) = n) -> ir_length t = Some len -> raw_gain fc len = 0 -> lp_hp_ir junk fc t hp = None.
Proof.
  intros hj hl hg. unfold lp_hp_ir. rewrite hl. cbn [bind]. destruct (Nat.eqb_spec len 1); [reflexivity|]. cbn [negb need bind].
  destruct (loop_set (fun i => window_blackman (INR i) len * sinc (2 * fc * (INR i - (INR len - 1) / 2))) (junk len) len 0 (eq_sym (hj len))) as (a & e & l1 & k1).
  rewrite e. cbn [bind]. destruct len as [|len]; [unfold rsum; destruct a; [reflexivity|discriminate]|]. rewrite rsum_correct by (auto; lia). cbn [bind].
  assert (hga : gain a = raw_gain fc (S len)) by (unfold gain, raw_gain; rewrite l1; apply rsumf_ext; exact k1). rewrite hga, hg. destruct (Req_EM_T 0 0); [reflexivity|lra].
Qed.
(** what a call that gives a kernel gives *)
Lemma lp_hp_returns junk fc t hp h : (forall n, length (junk n) = n) -> lp_hp_ir junk fc t hp = Some h ->
  exists len, ir_length t = Some len /\ (1 < len)%nat /\ raw_gain fc len <> 0.
Proof.
  intros hj e. assert (hh := e). unfold lp_hp_ir in e. destruct (ir_length t) as [len|] eqn:hl; [|discriminate]. cbn [bind] in e.
  destruct (Nat.eqb_spec len 1) as [->|n1]; [discriminate|]. cbn [negb need bind] in e.
  exists len. split; [reflexivity|]. destruct (Req_EM_T (raw_gain fc len) 0) as [z|z]; [rewrite (raw_sum_zero_none junk fc t hp len hj hl z) in hh; discriminate|]. split; [|exact z].
  destruct len; [|lia]. exfalso. apply z. reflexivity.
Qed.
Lemma ir_length_small t len : ir_length t = Some len -> (Z.of_nat len < two32)%Z /\ Nat.odd len = true.
Proof.
  unfold ir_length. destruct (Req_EM_T t 0); [discriminate|]. set (a := ceil (4 / t)).
  destruct ((0 <=? a)%Z && (a <? two32)%Z) eqn:b; [|discriminate]. cbn [need bind]. apply andb_true_iff in b. destruct b as [b1 b2]. apply Z.leb_le in b1. apply Z.ltb_lt in b2.
  intros [= <-]. destruct (Z.eqb_spec (a mod 2) 0) as [ev|od].
  - assert (a <> 4294967295)%Z by (intros hh; rewrite hh in ev; discriminate). unfold two32 in *. rewrite u32_small by (unfold two32; lia). split; [lia|].
    rewrite (odd_mod (a + 1)) by (auto; lia). replace ((a + 1) mod 2)%Z with 1%Z; [reflexivity|]. rewrite Z.add_mod by lia. rewrite ev. reflexivity.
  - split; [lia|]. rewrite (odd_mod a) by (auto; lia). destruct (Z.eqb_spec (a mod 2) 0); [contradiction|reflexivity].
Qed.
Lemma lp_hp_ir_kernels junk fc t hp h : (forall n, length (junk n) = n) -> lp_hp_ir junk fc t hp = Some h ->
  exists len, ir_length t = Some len /\ (1 < len)%nat /\ Nat.odd len = true /\ if hp then high_pass_kernel fc len h else low_pass_kernel fc len h.
Proof.
  intros hj e. destruct (lp_hp_returns junk fc t hp h hj e) as (len & hl & h1 & hg). destruct (ir_length_small t len hl) as [hs ho]. exists len. splits; auto.
  destruct hp.
  - destruct (hp_exact junk fc t len hj hl h1 hs hg) as (h' & e' & l' & k'). rewrite e in e'. injection e' as <-. split; [exact l'|].
    destruct (lp_exact junk fc t len hj hl h1 hg) as (p & e2 & l2 & k2). exists p. split; [apply low_pass_iff; auto|]. intros i hi. rewrite k', k2 by exact hi. reflexivity.
  - destruct (lp_exact junk fc t len hj hl h1 hg) as (p & e2 & l2 & k2). rewrite e in e2. injection e2 as <-. apply low_pass_iff. auto.
Qed.

(** ** properties of the kernels *)
Lemma low_pass_gain fc len h : low_pass_kernel fc len h -> gain h = 1.
Proof.
  intros hk. apply low_pass_iff in hk. destruct hk as (hg & hl & hn). unfold gain. rewrite hl. rewrite (rsumf_ext _ _ (fun i => raw fc len i * / raw_gain fc len)) by (intros; rewrite hn by auto; reflexivity).
  rewrite rsumf_scal_r. unfold raw_gain in *. field. exact hg.
Qed.
Lemma low_pass_symmetric fc len h : (1 < len)%nat -> low_pass_kernel fc len h -> symmetric h.
Proof.
  intros h1 hk. apply low_pass_iff in hk. destruct hk as (hg & hl & hn). intros i hi. rewrite hl in *. rewrite !hn by lia. rewrite raw_mirror by auto. reflexivity.
Qed.
Lemma impulse_sum len : (0 < len)%nat -> rsumf len (impulse len) = 1.
Proof.
  intros h. unfold impulse. apply (rsumf_one len ((len - 1) / 2) (fun _ => 1)). apply half_lt. exact h.
Qed.
Lemma impulse_mirror len i : Nat.odd len = true -> (i < len)%nat -> impulse len (len - 1 - i) = impulse len i.
Proof.
  intros ho hi. apply Nat.odd_spec in ho. destruct ho as [q ->]. unfold impulse. replace ((2 * q + 1 - 1) / 2)%nat with q by (replace (2 * q + 1 - 1)%nat with (q * 2)%nat by lia; rewrite Nat.div_mul; lia).
  destruct (Nat.eqb_spec (2 * q + 1 - 1 - i) q), (Nat.eqb_spec i q); try reflexivity; lia.
Qed.
Lemma high_pass_gain fc len h : (0 < len)%nat -> high_pass_kernel fc len h -> gain h = 0.
Proof.
  intros h0 (hl & lp & hlp & hn). pose proof (low_pass_gain _ _ _ hlp) as hg. unfold gain in *. destruct hlp as (hll & _). rewrite hl. rewrite hll in hg.
  rewrite (rsumf_ext len _ (fun i => impulse len i - nth i lp 0)) by exact hn. rewrite rsumf_minus, impulse_sum by exact h0. rewrite hg. ring.
Qed.
Lemma high_pass_symmetric fc len h : (1 < len)%nat -> Nat.odd len = true -> high_pass_kernel fc len h -> symmetric h.
Proof.
  intros h1 ho (hl & lp & hlp & hn) i hi. pose proof (low_pass_symmetric _ _ _ h1 hlp) as hs. destruct hlp as (hll & _). rewrite hl in *. rewrite !hn by lia.
  rewrite impulse_mirror by auto. unfold symmetric in hs. rewrite hll in hs. rewrite (hs i) by exact hi. reflexivity.
Qed.

(** ** sum of two kernels *)
Lemma add_centered_correct out over : Nat.odd (length out) = true -> Nat.odd (length over) = true -> (length over <= length out)%nat ->
  exists h, add_centered out over = Some h /\ length h = length out /\
    let start := ((length out - length over) / 2)%nat in
    (length out - length over = 2 * start)%nat /\
    forall i, (i < length out)%nat -> nth i h 0 = nth i out 0 + (if (start <=? i)%nat && (i <? length over + start)%nat then nth (i - start) over 0 else 0).
Proof.
  intros ho hv hle. apply Nat.odd_spec in ho, hv. destruct ho as [p hp], hv as [q hq]. unfold add_centered. set (n := length out) in *. set (m := length over) in *.
  replace ((n - 1) / 2 - (m - 1) / 2)%nat with (p - q)%nat by (rewrite hp, hq; replace (2 * p + 1 - 1)%nat with (p * 2)%nat by lia; replace (2 * q + 1 - 1)%nat with (q * 2)%nat by lia; rewrite !Nat.div_mul; lia).
  replace ((n - m) / 2)%nat with (p - q)%nat by (replace (n - m)%nat with ((p - q) * 2)%nat by lia; rewrite Nat.div_mul; lia).
  set (start := (p - q)%nat) in *.
  destruct (for_inv (fun k o => length o = n /\ forall i, (i < n)%nat -> nth_error o i = Some (nth i out 0 + (if (start <=? i)%nat && (i <? k)%nat then nth (i - start) over 0 else 0)))
    (fun i out => x <- aget over (i - start) ;; y <- aget out i ;; aset out i (x + y)) start (m + start) out) as [o [e (h1 & h2)]].
  - lia.
  - split; [reflexivity|]. intros i hi. rewrite (nth_error_of_nth out i 0) by exact hi. f_equal. destruct (Nat.leb_spec start i), (Nat.ltb_spec i start); cbn [andb]; try lia; ring.
  - intros i o hi (h1 & h2). unfold aget. rewrite (nth_error_of_nth over (i - start) 0) by (fold m; lia). cbn [bind]. rewrite h2 by lia. cbn [bind].
    match goal with |- context [aset o i ?v] => destruct (aset_some o i v) as [o' e]; [lia|] end. exists o'. split; [exact e|]. split; [rewrite (aset_length _ _ _ _ e); exact h1|].
    intros j hj. rewrite (aset_get _ _ _ _ j e). destruct (Nat.eqb_spec j i) as [->|ne].
    + f_equal. destruct (Nat.leb_spec start i), (Nat.ltb_spec i i), (Nat.ltb_spec i (S i)); cbn [andb]; try lia. ring.
    + rewrite h2 by exact hj. f_equal. destruct (Nat.leb_spec start j), (Nat.ltb_spec j i), (Nat.ltb_spec j (S i)); cbn [andb]; try lia; reflexivity.
  - exists o. split; [exact e|]. split; [exact h1|]. split; [lia|]. intros i hi. apply nth_error_nth_eq. apply h2. exact hi.
Qed.
Lemma window_sum n m s f : (m + s <= n)%nat -> rsumf n (fun i => if (s <=? i)%nat && (i <? m + s)%nat then f (i - s)%nat else 0) = rsumf m f.
Proof.
  intros h. replace n with (s + (m + (n - s - m)))%nat by lia. rewrite rsumf_app, rsumf_app. rewrite rsumf_zero_in.
  - rewrite (rsumf_ext m _ f).
    + rewrite (rsumf_zero_in (n - s - m)); [ring|]. intros i hi. destruct (Nat.ltb_spec (s + (m + i)) (m + s)); [lia|]. rewrite andb_false_r. reflexivity.
    + intros i hi. destruct (Nat.leb_spec s (s + i)), (Nat.ltb_spec (s + i) (m + s)); try lia. cbn [andb]. f_equal. lia.
  - intros i hi. destruct (Nat.leb_spec s i); [lia|]. reflexivity.
Qed.
Lemma sum_kernel out over h : Nat.odd (length out) = true -> Nat.odd (length over) = true -> (length over <= length out)%nat -> add_centered out over = Some h ->
  length h = length out /\ gain h = gain out + gain over /\ (symmetric out -> symmetric over -> symmetric h).
Proof.
  intros ho hv hle e. destruct (add_centered_correct out over ho hv hle) as (h' & e' & hl & hs & hn). rewrite e in e'. injection e' as <-. cbn zeta in *.
  set (s := ((length out - length over) / 2)%nat) in *. split; [exact hl|]. split.
  - unfold gain at 1. rewrite hl. rewrite (rsumf_ext _ _ _ hn), rsumf_plus. f_equal. rewrite (window_sum _ _ _ (fun k => nth k over 0)) by lia. reflexivity.
  - intros so sv i hi. unfold symmetric in so, sv. rewrite hl in *. rewrite !hn by lia. rewrite <- so by exact hi. f_equal.
    destruct (Nat.leb_spec s i), (Nat.ltb_spec i (length over + s)), (Nat.leb_spec s (length out - 1 - i)), (Nat.ltb_spec (length out - 1 - i) (length over + s)); cbn [andb]; try lia; try reflexivity.
    rewrite (sv (i - s)%nat) by lia. f_equal. lia.
Qed.

(** ** convolution of two kernels *)
Definition conv (a b : list R) (k : nat) : R := rsumf (length a) (fun i => if (i <=? k)%nat then nth i a 0 * nth (k - i) b 0 else 0).
Lemma fold_rplus l : forall acc, fold_left Rplus l acc = acc + fold_right Rplus 0 l.
Proof. induction l; intros acc; cbn; [ring|]. rewrite IHl. ring. Qed.
Lemma flat_map_seq_sum (f : nat -> list R) n : fold_right Rplus 0 (flat_map f (seq 0 n)) = rsumf n (fun i => fold_right Rplus 0 (f i)).
Proof.
  assert (ha : forall l m, fold_right Rplus 0 (l ++ m) = fold_right Rplus 0 l + fold_right Rplus 0 m) by (induction l; intros m; cbn; [ring|rewrite IHl; ring]).
  induction n; [reflexivity|]. rewrite seq_S, flat_map_app, ha, IHn. cbn. rewrite app_nil_r. reflexivity.
Qed.
Lemma conv_sample_conv a b k : conv_sample R Rplus Rmult 0 a b k = conv a b k.
Proof.
  unfold conv_sample. rewrite fold_rplus, Rplus_0_l, flat_map_seq_sum. unfold conv.
  assert (ht : forall i, (i <= k)%nat -> fold_right Rplus 0 (conv_term R Rmult a b k i) = nth i a 0 * nth (k - i) b 0).
  { intros i hi. unfold conv_term. destruct (nth_error a i) as [x|] eqn:ex.
    - rewrite (nth_error_nth_eq a i x 0 ex). destruct (nth_error b (k - i)) as [y|] eqn:ey.
      + rewrite (nth_error_nth_eq b _ y 0 ey). cbn. ring.
      + apply nth_error_None in ey. rewrite (nth_overflow b) by exact ey. cbn. ring.
    - apply nth_error_None in ex. rewrite (nth_overflow a) by exact ex. cbn. ring. }
  destruct (Nat.le_gt_cases (length a) (S k)) as [hle|hgt].
  - replace (S k) with (length a + (S k - length a))%nat by lia. rewrite rsumf_app. rewrite (rsumf_zero_in (S k - length a)).
    + rewrite Rplus_0_r. apply rsumf_ext. intros i hi. destruct (Nat.leb_spec i k); [apply ht; lia|lia].
    + intros i hi. rewrite ht by lia. rewrite nth_overflow by lia. ring.
  - replace (length a) with (S k + (length a - S k))%nat by lia. rewrite rsumf_app. rewrite (rsumf_zero_in (length a - S k)).
    + rewrite Rplus_0_r. apply rsumf_ext. intros i hi. destruct (Nat.leb_spec i k); [apply ht; lia|lia].
    + intros i hi. destruct (Nat.leb_spec (S k + i) k); [lia|reflexivity].
Qed.
Lemma conv_weighted a b g : (0 < length a)%nat -> (0 < length b)%nat ->
  rsumf (length a + length b - 1) (fun k => conv a b k * g k) = rsumf (length a) (fun i => rsumf (length b) (fun j => nth i a 0 * nth j b 0 * g (i + j)%nat)).
Proof.
  intros ha hb. unfold conv. rewrite (rsumf_ext _ _ (fun k => rsumf (length a) (fun i => (if (i <=? k)%nat then nth i a 0 * nth (k - i) b 0 else 0) * g k))) by (intros; rewrite rsumf_scal_r; reflexivity).
  rewrite rsumf_swap. apply rsumf_ext. intros i hi.
  rewrite <- (window_sum (length a + length b - 1) (length b) i (fun j => nth i a 0 * nth j b 0 * g (i + j)%nat)) by lia.
  apply rsumf_ext. intros k hk. destruct (Nat.leb_spec i k); cbn [andb]; [|ring]. destruct (Nat.ltb_spec k (length b + i)).
  - replace (i + (k - i))%nat with k by lia. reflexivity.
  - rewrite (nth_overflow b) by lia. ring.
Qed.
Lemma conv_mirror a b k : symmetric a -> symmetric b -> (0 < length a)%nat -> (0 < length b)%nat -> (k < length a + length b - 1)%nat ->
  conv a b (length a + length b - 1 - 1 - k) = conv a b k.
Proof.
  intros sa sb ha hb hk. unfold conv. rewrite rsumf_rev. apply rsumf_ext. intros i hi. rewrite <- (sa i) by exact hi.
  destruct (Nat.leb_spec i k), (Nat.leb_spec (length a - 1 - i) (length a + length b - 1 - 1 - k)).
  - replace (length a + length b - 1 - 1 - k - (length a - 1 - i))%nat with (length b - 1 - (k - i))%nat by lia. rewrite <- (sb (k - i)%nat) by lia. reflexivity.
  - rewrite (nth_overflow b (n:=(k - i)%nat)) by lia. ring.
  - rewrite (nth_overflow b) by lia. ring.
  - lia.
Qed.
Lemma conv_kernel a b : (0 < length a)%nat -> (0 < length b)%nat ->
  exists h, sp_convolve_one R Rplus Rmult a (length a) b (length b) (repeat 0 (length a + length b - 1)) = Some h /\ length h = (length a + length b - 1)%nat /\
    (forall k, (k < length h)%nat -> nth k h 0 = conv a b k) /\ gain h = gain a * gain b /\ (symmetric a -> symmetric b -> symmetric h) /\
    forall w, response_re h w = response_re a w * response_re b w - response_im a w * response_im b w /\
              response_im h w = response_re a w * response_im b w + response_im a w * response_re b w.
Proof.
  intros ha hb. eexists. split; [apply (convolve_one_whole R 0 Rplus Rmult a b); lia|]. set (n := (length a + length b - 1)%nat). set (h := conv_samples R 0 Rplus Rmult a b 0 n).
  assert (hl : length h = n) by (unfold h, conv_samples; rewrite map_length, seq_length; reflexivity).
  assert (hn : forall k, (k < n)%nat -> nth k h 0 = conv a b k).
  { intros k hk. rewrite <- conv_sample_conv. unfold h, conv_samples. rewrite (nth_indep _ 0 (conv_sample R Rplus Rmult 0 a b 0)) by (rewrite map_length, seq_length; exact hk).
    rewrite (map_nth (conv_sample R Rplus Rmult 0 a b)). rewrite seq_nth by exact hk. reflexivity. }
  assert (hw : forall g, rsumf n (fun k => nth k h 0 * g k) = rsumf (length a) (fun i => rsumf (length b) (fun j => nth i a 0 * nth j b 0 * g (i + j)%nat))).
  { intros g. rewrite (rsumf_ext n _ (fun k => conv a b k * g k)) by (intros k hk; rewrite hn by exact hk; reflexivity). apply conv_weighted; auto. }
  splits; auto.
  - intros k hk. rewrite hl in hk. auto.
  - unfold gain at 1. rewrite hl. rewrite (rsumf_ext n _ (fun k => nth k h 0 * 1)) by (intros; ring). rewrite (hw (fun _ => 1)). unfold gain.
    rewrite <- rsumf_scal_r. apply rsumf_ext. intros i hi. rewrite <- rsumf_scal. apply rsumf_ext. intros j hj. ring.
  - intros sa sb k hk. rewrite hl in *. rewrite !hn by lia. symmetry. apply conv_mirror; auto.
  - intros w. unfold response_re at 1, response_im at 3. rewrite hl. rewrite (hw (fun k => cos (INR k * w))), (hw (fun k => - sin (INR k * w))). unfold response_re, response_im. split.
    + rewrite <- !rsumf_scal_r, <- rsumf_minus. apply rsumf_ext. intros i hi. rewrite <- !rsumf_scal, <- rsumf_minus. apply rsumf_ext. intros j hj.
      rewrite plus_INR, Rmult_plus_distr_r, cos_plus. ring.
    + rewrite <- !rsumf_scal_r, <- rsumf_plus. apply rsumf_ext. intros i hi. rewrite <- !rsumf_scal, <- rsumf_plus. apply rsumf_ext. intros j hj.
      rewrite plus_INR, Rmult_plus_distr_r, sin_plus. ring.
Qed.

(** ** responses of inverted and reversed kernels *)
Lemma inversion_involutive a b : (0 < length a)%nat -> (Z.of_nat (length a) < two32)%Z -> spectral_inversion a (length a) = Some b -> spectral_inversion b (length b) = Some a.
Proof.
  intros h hm e. destruct (inversion_correct a h hm) as (b' & e' & l1 & k1). rewrite e in e'. injection e' as <-.
  destruct (inversion_correct b) as (c & e2 & l2 & k2); [lia|lia|]. rewrite e2. f_equal. apply (list_eq_nth c a 0); [lia|]. intros i hi. rewrite k2 by lia. rewrite k1 by lia. rewrite l1. ring.
Qed.
Lemma inversion_responses a b w : (0 < length a)%nat -> (Z.of_nat (length a) < two32)%Z -> spectral_inversion a (length a) = Some b ->
  let c := ((length a - 1) / 2)%nat in
  response_re b w = cos (INR c * w) - response_re a w /\ response_im b w = - sin (INR c * w) - response_im a w.
Proof.
  intros h hm e c. destruct (inversion_correct a h hm) as (b' & e' & l1 & k1). rewrite e in e'. injection e' as <-. unfold response_re, response_im. rewrite l1.
  assert (hi : forall g, rsumf (length a) (fun k => nth k b 0 * g k) = g c - rsumf (length a) (fun k => nth k a 0 * g k)).
  { intros g. rewrite (rsumf_ext _ _ (fun k => (if (k =? c)%nat then g k else 0) - nth k a 0 * g k)).
    - rewrite rsumf_minus. f_equal. apply (rsumf_one (length a) c g). apply half_lt. exact h.
    - intros k hk. rewrite k1 by exact hk. unfold impulse. fold c. destruct (k =? c)%nat; ring. }
  split; apply hi.
Qed.
(** the response of a symmetric kernel, relative to its center, is real *)
Lemma inversion_amplitude a b w : Nat.odd (length a) = true -> (Z.of_nat (length a) < two32)%Z -> spectral_inversion a (length a) = Some b -> amplitude b w = 1 - amplitude a w.
Proof.
  intros ho hm e. assert (h : (0 < length a)%nat) by (destruct (length a); [discriminate|lia]).
  destruct (inversion_correct a h hm) as (b' & e' & l1 & k1). rewrite e in e'. injection e' as <-. unfold amplitude. rewrite l1.
  set (c := ((length a - 1) / 2)%nat). assert (hc : INR c = (INR (length a) - 1) / 2).
  { apply Nat.odd_spec in ho. destruct ho as [q hq]. unfold c. rewrite hq. replace ((2 * q + 1 - 1) / 2)%nat with q by (replace (2 * q + 1 - 1)%nat with (q * 2)%nat by lia; rewrite Nat.div_mul; lia).
    rewrite plus_INR, mult_INR. cbn [INR]. field. }
  rewrite (rsumf_ext _ _ (fun k => (if (k =? c)%nat then 1 else 0) - nth k a 0 * cos ((INR k - (INR (length a) - 1) / 2) * w))).
  - rewrite rsumf_minus. f_equal. apply (rsumf_one (length a) c (fun _ => 1)). apply half_lt. exact h.
  - intros k hk. rewrite k1 by exact hk. unfold impulse. fold c. destruct (Nat.eqb_spec k c) as [->|ne]; [|ring].
    rewrite hc. replace (((INR (length a) - 1) / 2 - (INR (length a) - 1) / 2) * w) with 0 by ring. rewrite cos_0. ring.
Qed.
Lemma amplitude_response h w : symmetric h -> let c := (INR (length h) - 1) / 2 in
  response_re h w = amplitude h w * cos (c * w) /\ response_im h w = - (amplitude h w * sin (c * w)).
Proof.
  intros hs c. unfold response_re, response_im, amplitude. fold c. set (n := length h).
  assert (hz : rsumf n (fun k => nth k h 0 * sin ((INR k - c) * w)) = 0).
  { assert (hr : rsumf n (fun k => nth k h 0 * sin ((INR k - c) * w)) = - rsumf n (fun k => nth k h 0 * sin ((INR k - c) * w))).
    { rewrite rsumf_rev at 1. replace (- rsumf n (fun k => nth k h 0 * sin ((INR k - c) * w))) with ((-1) * rsumf n (fun k => nth k h 0 * sin ((INR k - c) * w))) by ring.
      rewrite <- rsumf_scal. apply rsumf_ext. intros i hi. unfold symmetric in hs. fold n in hs. rewrite <- hs by exact hi.
      replace ((INR (n - 1 - i) - c) * w) with (- ((INR i - c) * w)).
      - rewrite sin_neg. ring.
      - replace (n - 1 - i)%nat with ((n - 1) - i)%nat by lia. rewrite minus_INR by lia. rewrite minus_INR by lia. cbn [INR]. unfold c. fold n. field. }
    lra. }
  split.
  - rewrite (rsumf_ext n _ (fun k => nth k h 0 * cos ((INR k - c) * w) * cos (c * w) - nth k h 0 * sin ((INR k - c) * w) * sin (c * w))).
    + rewrite rsumf_minus, !rsumf_scal_r, hz. ring.
    + intros k hk. replace (INR k * w) with ((INR k - c) * w + c * w) by ring. rewrite cos_plus. ring.
  - rewrite (rsumf_ext n _ (fun k => (-1) * (nth k h 0 * sin ((INR k - c) * w) * cos (c * w) + nth k h 0 * cos ((INR k - c) * w) * sin (c * w)))).
    + rewrite rsumf_scal, rsumf_plus, !rsumf_scal_r, hz. ring.
    + intros k hk. replace (INR k * w) with ((INR k - c) * w + c * w) by ring. rewrite sin_plus. ring.
Qed.
Lemma reversal_odd a : Nat.odd (length a) = true -> exists b, spectral_reversal a (length a) = Some b /\ length b = length a /\
  forall i, (i < length a)%nat -> nth i b 0 = (-1) ^ i * nth i a 0.
Proof.
  intros ho. destruct (reversal_correct a) as (b & e & l & k). exists b. splits; auto. intros i hi. rewrite k by exact hi.
  assert (hp : (-1) ^ i = if Nat.even i then 1 else -1).
  { clear. induction i; [reflexivity|]. rewrite Nat.even_succ, <- Nat.negb_even. cbn [pow]. rewrite IHi. destruct (Nat.even i); cbn; ring. }
  rewrite hp. rewrite Nat.even_sub by lia. rewrite <- Nat.negb_odd, ho. cbn. destruct (Nat.even i); cbn; ring.
Qed.
Lemma cos_pi_shift k w : cos (INR k * (w + PI)) = (-1) ^ k * cos (INR k * w) /\ sin (INR k * (w + PI)) = (-1) ^ k * sin (INR k * w).
Proof.
  induction k; [cbn; rewrite !Rmult_0_l, cos_0, sin_0; split; ring|]. destruct IHk as [h1 h2]. rewrite S_INR.
  replace ((INR k + 1) * (w + PI)) with ((INR k * (w + PI) + w) + PI) by ring. rewrite neg_cos, neg_sin, cos_plus, sin_plus, h1, h2.
  replace ((INR k + 1) * w) with (INR k * w + w) by ring. rewrite cos_plus, sin_plus. cbn [pow]. split; ring.
Qed.
Lemma reversal_responses a b w : Nat.odd (length a) = true -> spectral_reversal a (length a) = Some b ->
  response_re b w = response_re a (w + PI) /\ response_im b w = response_im a (w + PI).
Proof.
  intros ho e. destruct (reversal_odd a ho) as (b' & e' & l & k). rewrite e in e'. injection e' as <-. unfold response_re, response_im. rewrite l.
  split; apply rsumf_ext; intros i hi; rewrite k by exact hi; destruct (cos_pi_shift i w) as [c1 c2]; rewrite ?c1, ?c2; ring.
Qed.
Lemma pow_m1_sq i : (-1) ^ i * (-1) ^ i = 1.
Proof. rewrite <- Rpow_mult_distr. replace (-1 * -1) with 1 by ring. apply pow1. Qed.
Lemma reversal_gains a b : Nat.odd (length a) = true -> spectral_reversal a (length a) = Some b ->
  spectral_reversal b (length b) = Some a /\ gain b = gain_highest a /\ gain_highest b = gain a.
Proof.
  intros ho e. destruct (reversal_odd a ho) as (b' & e' & l & k). rewrite e in e'. injection e' as <-. splits.
  - destruct (reversal_odd b) as (c & e2 & l2 & k2); [rewrite l; exact ho|]. rewrite e2. f_equal. apply (list_eq_nth c a 0); [lia|]. intros i hi. rewrite k2, k by lia.
    rewrite <- Rmult_assoc, pow_m1_sq. ring.
  - unfold gain, gain_highest. rewrite l. apply rsumf_ext. intros i hi. apply k. exact hi.
  - unfold gain, gain_highest. rewrite l. apply rsumf_ext. intros i hi. rewrite k by exact hi. rewrite <- Rmult_assoc, pow_m1_sq. ring.
Qed.
Lemma inversion_gain a b : (0 < length a)%nat -> (Z.of_nat (length a) < two32)%Z -> spectral_inversion a (length a) = Some b -> gain b = 1 - gain a.
Proof.
  intros h hm e. destruct (inversion_correct a h hm) as (b' & e' & l1 & k1). rewrite e in e'. injection e' as <-. unfold gain. rewrite l1. rewrite (rsumf_ext _ _ _ k1), rsumf_minus, impulse_sum by exact h. reflexivity.
Qed.

(** ** the functions *)
Lemma raw_kernel_gain fc len r : raw_kernel fc len r -> gain r = raw_gain fc len.
Proof. intros (h1 & h2). unfold gain, raw_gain. rewrite h1. apply rsumf_ext. intros i hi. apply raw_unique. auto. Qed.
Lemma raw_kernel_exists fc len : exists r, raw_kernel fc len r.
Proof.
  exists (map (raw fc len) (seq 0 len)). split; [rewrite map_length, seq_length; reflexivity|]. intros i hi.
  rewrite (nth_indep _ 0 (raw fc len 0%nat)) by (rewrite map_length, seq_length; exact hi). rewrite (map_nth (raw fc len)). rewrite seq_nth by exact hi. apply raw_spec.
Qed.
Lemma lp_hp_correct junk fc t hp len : (forall n, length (junk n) = n) -> 0 < t < 4 -> kernel_length t len -> 4 / t <= 4294967295 ->
  (forall r, raw_kernel fc len r -> gain r <> 0) ->
  exists h, lp_hp_ir junk fc t hp = Some h /\ (if hp then high_pass_kernel fc len h else low_pass_kernel fc len h).
Proof.
  intros hj ht hk hb hg. destruct (ir_length_correct t) as (len' & e & k & hs & h1); [lra|exact hb|]. rewrite (kernel_length_unique _ _ _ k hk) in *. clear len' k.
  specialize (h1 (proj2 ht)). assert (hr : raw_gain fc len <> 0) by (destruct (raw_kernel_exists fc len) as [r hr]; rewrite <- (raw_kernel_gain fc len r hr); auto).
  assert (ex : exists h, lp_hp_ir junk fc t hp = Some h).
  { destruct hp; [destruct (hp_exact junk fc t len hj e h1 hs hr) as (h & eh & _)|destruct (lp_exact junk fc t len hj e h1 hr) as (h & eh & _)]; eauto. }
  destruct ex as [h eh]. exists h. split; [exact eh|]. destruct (lp_hp_ir_kernels junk fc t hp h hj eh) as (len' & e' & _ & _ & hh). rewrite e in e'. injection e' as <-. exact hh.
Qed.
Lemma lp_hp_zero_gain junk fc t hp len r : (forall n, length (junk n) = n) -> 0 < t < 4 -> kernel_length t len -> 4 / t <= 4294967295 ->
  raw_kernel fc len r -> gain r = 0 -> lp_hp_ir junk fc t hp = None.
Proof.
  intros hj ht hk hb hr hg. destruct (ir_length_correct t) as (len' & e & k & hs & h1); [lra|exact hb|]. rewrite (kernel_length_unique _ _ _ k hk) in *.
  apply (raw_sum_zero_none junk fc t hp len hj e). rewrite <- (raw_kernel_gain fc len r hr). exact hg.
Qed.
Lemma long_transition junk fc t hp : 4 <= t -> lp_hp_ir junk fc t hp = None.
Proof.
  intros ht. unfold lp_hp_ir. destruct (ir_length_correct t) as (len & e & (k1 & k2 & k3) & hs & _); [lra| |].
  { apply Rle_trans with 1; [|lra]. apply Rmult_le_reg_r with t; [lra|]. unfold Rdiv. rewrite Rmult_assoc, Rinv_l by lra. lra. }
  rewrite e. cbn [bind]. assert (len = 1%nat).
  { apply Nat.le_antisymm; [|destruct len; [discriminate|lia]]. apply k3; [reflexivity|]. cbn [INR]. apply Rmult_le_reg_r with t; [lra|]. unfold Rdiv. rewrite Rmult_assoc, Rinv_l by lra. lra. }
  subst len. reflexivity.
Qed.
Lemma lp_hp_gain_symmetric junk fc t (hp : bool) h : (forall n, length (junk n) = n) -> lp_hp_ir junk fc t hp = Some h ->
  gain h = (if hp then 0 else 1) /\ symmetric h /\ Nat.odd (length h) = true /\ (1 < length h)%nat.
Proof.
  intros hj e. destruct (lp_hp_ir_kernels junk fc t hp h hj e) as (len & hl & h1 & ho & hk). destruct hp.
  - assert (length h = len) by apply hk. rewrite H. splits; auto; [apply (high_pass_gain fc len); auto; lia|apply (high_pass_symmetric fc len); auto].
  - assert (length h = len) by apply hk. rewrite H. splits; auto; [apply (low_pass_gain fc len); auto|apply (low_pass_symmetric fc len); auto].
Qed.
Lemma odd_add a b : Nat.odd a = true -> Nat.odd b = true -> Nat.odd (a + b - 1) = true.
Proof. intros ha hb. apply Nat.odd_spec in ha, hb. destruct ha as [p ->], hb as [q ->]. apply Nat.odd_spec. exists (p + q)%nat. lia. Qed.
Lemma band_reject_inside junk cl ch tl th lp hp : (forall n, length (junk n) = n) -> 0 < cl -> ch < 1 / 2 ->
  lp_hp_ir junk cl tl false = Some lp -> lp_hp_ir junk ch th true = Some hp ->
  exists h, bp_br_ir junk cl ch tl th true = Some h /\ (if (length hp <? length lp)%nat then centered_sum lp hp h else centered_sum hp lp h) /\
    gain h = 1 /\ symmetric h /\ Nat.odd (length h) = true /\ length h = Nat.max (length lp) (length hp).
Proof.
  intros hj h1 h2 e1 e2. unfold bp_br_ir. destruct (Rle_dec cl 0); [lra|]. destruct (Rle_dec (1 / 2) ch); [lra|]. rewrite e1. cbn [bind]. rewrite e2. cbn [bind].
  destruct (lp_hp_gain_symmetric junk cl tl false lp hj e1) as (g1 & s1 & o1 & l1). destruct (lp_hp_gain_symmetric junk ch th true hp hj e2) as (g2 & s2 & o2 & l2). cbn iota in *.
  assert (hc : forall a b, Nat.odd (length a) = true -> Nat.odd (length b) = true -> (length b <= length a)%nat -> gain a + gain b = 1 -> symmetric a -> symmetric b ->
    exists h, add_centered a b = Some h /\ centered_sum a b h /\ gain h = 1 /\ symmetric h /\ Nat.odd (length h) = true /\ length h = length a).
  { intros a b oa ob hle hg sa sb. destruct (add_centered_correct a b oa ob hle) as (h & e & hl & hs & hn). cbn zeta in *. exists h.
    destruct (sum_kernel a b h oa ob hle e) as (k1 & k2 & k3). splits; auto; [|lra|rewrite hl; exact oa].
    exists ((length a - length b) / 2)%nat. splits; auto; [lia|]. intros i hi. rewrite hn by exact hi. rewrite (Nat.add_comm (length b)). reflexivity. }
  destruct (Nat.ltb_spec (length hp) (length lp)).
  - destruct (hc lp hp o1 o2 ltac:(lia) ltac:(lra) s1 s2) as (h & k1 & k2 & k3 & k4 & k5 & k6). exists h. splits; auto. lia.
  - destruct (hc hp lp o2 o1 ltac:(lia) ltac:(lra) s2 s1) as (h & k1 & k2 & k3 & k4 & k5 & k6). exists h. splits; auto. lia.
Qed.
Lemma band_pass_inside junk cl ch tl th lp hp : (forall n, length (junk n) = n) -> 0 < cl -> ch < 1 / 2 ->
  lp_hp_ir junk cl tl true = Some hp -> lp_hp_ir junk ch th false = Some lp ->
  exists h, bp_br_ir junk cl ch tl th false = Some h /\
    (forall w, response_re h w = response_re lp w * response_re hp w - response_im lp w * response_im hp w /\
               response_im h w = response_re lp w * response_im hp w + response_im lp w * response_re hp w) /\
    gain h = 0 /\ symmetric h /\ Nat.odd (length h) = true /\ length h = (length lp + length hp - 1)%nat.
Proof.
  intros hj h1 h2 e1 e2. unfold bp_br_ir. destruct (Rle_dec cl 0); [lra|]. destruct (Rle_dec (1 / 2) ch); [lra|]. rewrite e1. cbn [bind]. rewrite e2. cbn [bind].
  destruct (lp_hp_gain_symmetric junk cl tl true hp hj e1) as (g1 & s1 & o1 & l1). destruct (lp_hp_gain_symmetric junk ch th false lp hj e2) as (g2 & s2 & o2 & l2). cbn iota in *.
  destruct (conv_kernel lp hp ltac:(lia) ltac:(lia)) as (h & k1 & k2 & k3 & k4 & k5 & k6). exists h. splits; auto; [rewrite k4, g1, g2; ring|rewrite k2; apply odd_add; auto].
Qed.
Lemma band_outside junk cl ch tl th :
  (cl <= 0 -> 1 / 2 <= ch -> bp_br_ir junk cl ch tl th true = Some [0] /\ bp_br_ir junk cl ch tl th false = Some [1]) /\
  (cl <= 0 -> ch < 1 / 2 -> bp_br_ir junk cl ch tl th true = lp_hp_ir junk ch th true /\ bp_br_ir junk cl ch tl th false = lp_hp_ir junk ch th false) /\
  (0 < cl -> 1 / 2 <= ch -> bp_br_ir junk cl ch tl th true = lp_hp_ir junk cl tl false /\ bp_br_ir junk cl ch tl th false = lp_hp_ir junk cl tl true).
Proof.
  unfold bp_br_ir. splits; intros h1 h2; destruct (Rle_dec cl 0); try lra; destruct (Rle_dec (1 / 2) ch); try lra; split; reflexivity.
Qed.
(** an example: five samples *)
Lemma demo_length : kernel_length 1 5.
Proof.
  split; [reflexivity|]. split; [cbn [INR]; lra|]. intros n ho hn. assert (4 <= n)%nat by (apply INR_le; cbn [INR]; cbn [INR] in hn; lra).
  destruct (Nat.eq_dec n 4) as [->|]; [discriminate|lia].
Qed.
Lemma demo_gain r : raw_kernel (1 / 4) 5 r -> gain r <> 0.
Proof.
  intros hr. rewrite (raw_kernel_gain _ _ _ hr). unfold raw_gain. cbn [rsumf].
  assert (w0 : raw (1 / 4) 5 0 = 0).
  { unfold raw, window_blackman. cbn [INR]. replace (2 * PI * 0 / (1 + 1 + 1 + 1 + 1 - 1)) with 0 by field. replace (4 * PI * 0 / (1 + 1 + 1 + 1 + 1 - 1)) with 0 by field. rewrite cos_0. lra. }
  assert (w2 : raw (1 / 4) 5 2 = 1).
  { unfold raw, window_blackman. cbn [INR]. replace (2 * PI * (1 + 1) / (1 + 1 + 1 + 1 + 1 - 1)) with PI by field. replace (4 * PI * (1 + 1) / (1 + 1 + 1 + 1 + 1 - 1)) with (2 * PI) by field.
    rewrite cos_PI, cos_2PI. unfold sinc. destruct (Req_EM_T 0 (2 * (1 / 4) * (1 + 1 - (1 + 1 + 1 + 1 + 1 - 1) / 2))); lra. }
  assert (w1 : 0 < raw (1 / 4) 5 1).
  { unfold raw, window_blackman. cbn [INR]. replace (2 * PI * 1 / (1 + 1 + 1 + 1 + 1 - 1)) with (PI / 2) by field. replace (4 * PI * 1 / (1 + 1 + 1 + 1 + 1 - 1)) with PI by field.
    rewrite cos_PI2, cos_PI. replace (2 * (1 / 4) * (1 - (1 + 1 + 1 + 1 + 1 - 1) / 2)) with (- (1 / 2)) by field. rewrite sinc_even. unfold sinc.
    destruct (Req_EM_T 0 (1 / 2)); [lra|]. replace (PI * (1 / 2)) with (PI / 2) by field. rewrite sin_PI2. pose proof PI_RGT_0. apply Rmult_lt_0_compat; [lra|]. apply Rdiv_lt_0_compat; lra. }
  pose proof (raw_mirror (1 / 4) 5 1 ltac:(lia) ltac:(lia)) as w3. pose proof (raw_mirror (1 / 4) 5 0 ltac:(lia) ltac:(lia)) as w4. cbn [Nat.sub] in w3, w4. lra.
Qed.
