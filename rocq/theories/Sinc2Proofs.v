From Coq Require Import Reals Lra.
From Verif Require Import Base ConvolveModel ConvolveSpec ConvolveProofs FilterModel FilterSpec FilterProofs FilterFinal KerModel KerSpec Ker2Proofs SincModel SincSpec SincProofs.
From Coq Require Import ZifyBool ZifyNat Lia.
Open Scope nat_scope.

Section Same.
Variable V : Type.
Variables (zero : V) (add mul : V -> V -> V).
Variable ir_f : nat -> list Z -> option (list V).
Variable junk : nat -> list V.
Variable junkb : nat -> list Z.
Hypothesis junk_len : forall n, length (junk n) = n.
Hypothesis junkb_len : forall n, length (junkb n) = n.
Variable h0 : heap V.
Notation values := (values V zero add mul).
Notation outputs := (outputs V zero add mul).

(** a call that finds its function and its argument bytes in the state keeps the kernel *)
Lemma filter_same h sp s buf irp ir cl args a out :
  inv V h0 h sp s buf irp ir cl -> st_args_len s = length args -> firstn (length args) buf = args -> length out = length a ->
  exists h' out', convolution_filter V zero add mul ir_f (fun _ => true) junk junkb a (st_ir_f s) args (length args) (Some sp) out h = Some (Ok tt, out', Some sp, h') /\
  forall hist, values hist ir cl -> out' = outputs (hist ++ [(a, ir)]) (total V hist) (length a).
Proof.
  intros I Hl Hb Ho. assert (LB : length args <= length buf) by (rewrite <- Hl; exact (inv_len _ _ _ _ _ _ _ _ _ I)).
  assert (E1 : state_set V zero ir_f (fun _ => true) junk junkb (st_ir_f s) args (length args) (Some sp) h = Some (Ok tt, Some sp, h)).
  { unfold state_set, load_state, load_bytes. rewrite (inv_state _ _ _ _ _ _ _ _ _ I). cbn [bind]. rewrite (inv_args _ _ _ _ _ _ _ _ _ I). cbn [bind].
    rewrite Hl, !Nat.eqb_refl. cbn [andb]. unfold bytes_equal. rewrite (slice_some buf 0 (length args)), (slice_some args 0 (length args)) by lia. cbn [bind skipn].
    rewrite firstn_all, Hb. destruct (list_eq_dec Z.eq_dec args args); [reflexivity|contradiction]. }
  unfold convolution_filter, load_state at 1. rewrite (inv_state _ _ _ _ _ _ _ _ _ I). cbn [bind]. rewrite E1. cbn [bind].
  pose proof (inv_carry_length V zero add mul ir_f junk junkb junk_len junkb_len h0 _ _ _ _ _ _ _ I) as Hc0.
  pose proof (inv_ir_pos _ _ _ _ _ _ _ _ _ I) as Hp1. rewrite (inv_carry_len _ _ _ _ _ _ _ _ _ I).
  destruct (convolve_spec V zero add mul a (length a) ir (length ir) (length ir - 1) cl out) as (out' & cl2 & E2 & L1 & L2 & _); try lia.
  destruct (filter_tail V zero add mul ir_f junk junkb junk_len junkb_len h0 h sp s buf irp ir cl (length ir - 1) a out I out' cl2 E2 L2) as (h' & E' & I').
  rewrite E'. exists h', out'. split; [reflexivity|]. intros hist HV.
  destruct (convolve_values V zero add mul ir_f junk junkb junk_len junkb_len h0 hist ir cl cl ir a out HV) as (o & c & E3 & _ & _ & H3); auto; try lia.
  { split; intros j Hj; [reflexivity|lia]. }
  rewrite E2 in E3. injection E3 as <- <-. apply H3. lia.
Qed.
End Same.

Lemma lp_hp_pos junk c t b k : (forall n, length (junk n) = n) -> lp_hp_ir junk c t b = Some k -> 0 < length k.
Proof. intros hj e. destruct (lp_hp_gain_symmetric junk c t b k hj e) as (_ & _ & _ & H). lia. Qed.
Lemma bp_br_pos junk cl ch tl th b k : (forall n, length (junk n) = n) -> bp_br_ir junk cl ch tl th b = Some k -> 0 < length k.
Proof.
  intros hj e. destruct (Rle_dec cl 0) as [Hl|Hl], (Rle_dec (1 / 2) ch) as [Hh|Hh].
  - destruct (proj1 (band_outside junk cl ch tl th) Hl Hh) as [E1 E2]. destruct b; rewrite ?E1, ?E2 in e; injection e as <-; cbn; lia.
  - destruct (proj1 (proj2 (band_outside junk cl ch tl th)) Hl ltac:(lra)) as [E1 E2]. destruct b; rewrite ?E1, ?E2 in e; apply lp_hp_pos in e; auto.
  - destruct (proj2 (proj2 (band_outside junk cl ch tl th)) ltac:(lra) Hh) as [E1 E2]. destruct b; rewrite ?E1, ?E2 in e; apply lp_hp_pos in e; auto.
  - destruct b.
    + destruct (lp_hp_ir junk cl tl false) as [lp|] eqn:El.
      2: { unfold bp_br_ir in e. destruct (Rle_dec cl 0); [lra|]. destruct (Rle_dec (1 / 2) ch); [lra|]. rewrite El in e. discriminate. }
      destruct (lp_hp_ir junk ch th true) as [hp|] eqn:Eh.
      2: { unfold bp_br_ir in e. destruct (Rle_dec cl 0); [lra|]. destruct (Rle_dec (1 / 2) ch); [lra|]. rewrite El in e. cbn [bind] in e. rewrite Eh in e. discriminate. }
      destruct (band_reject_inside junk cl ch tl th lp hp hj ltac:(lra) ltac:(lra) El Eh) as (k' & E & _ & _ & _ & _ & L). rewrite E in e. injection e as <-.
      apply lp_hp_pos in El; auto. lia.
    + destruct (lp_hp_ir junk cl tl true) as [hp|] eqn:Eh.
      2: { unfold bp_br_ir in e. destruct (Rle_dec cl 0); [lra|]. destruct (Rle_dec (1 / 2) ch); [lra|]. rewrite Eh in e. discriminate. }
      destruct (lp_hp_ir junk ch th false) as [lp|] eqn:El.
      2: { unfold bp_br_ir in e. destruct (Rle_dec cl 0); [lra|]. destruct (Rle_dec (1 / 2) ch); [lra|]. rewrite Eh in e. cbn [bind] in e. rewrite El in e. discriminate. }
      destruct (band_pass_inside junk cl ch tl th lp hp hj ltac:(lra) ltac:(lra) Eh El) as (k' & E & _ & _ & _ & _ & L). rewrite E in e. injection e as <-.
      apply lp_hp_pos in El; auto. apply lp_hp_pos in Eh; auto. lia.
Qed.

Section Proofs.
Variable D : Type.
Variable val : D -> R.
Variable enc : D -> list Z.
Variable dec : list Z -> D.
Variable junk : nat -> list R.
Variable junkb : nat -> list Z.
Hypothesis code : encoding D enc dec.
Hypothesis junk_len : forall n, length (junk n) = n.
Hypothesis junkb_len : forall n, length (junkb n) = n.
Notation ir_f := (sinc_ir_f D val dec junk).

Lemma asks_pos q s : asks D val junk q s -> 0 < length (snd s).
Proof. destruct q; cbn [asks]; intros [_ E]; [eapply lp_hp_pos|eapply bp_br_pos]; eauto. Qed.
Lemma asks_all_pos qs ss : Forall2 (asks D val junk) qs ss -> Forall (fun s => 0 < length (snd s)) ss.
Proof. induction 1; constructor; auto. eapply asks_pos; eauto. Qed.

Lemma lp_hp_requests qs ss (h0 : heap R) : Forall (is_lp_hp D) qs -> Forall2 (asks D val junk) qs ss -> tails_fit R 0 ss ->
  exists outs st h', run_requests D val enc dec junk junkb qs None h0 = Some (outs, st, h') /\ Forall (fun r => fst r = Ok tt) outs /\
  concat (map snd outs) = map (overlap_add R Rplus Rmult 0%R ss) (seq 0 (length (concat (map fst ss)))).
Proof.
  intros F H T. apply (requests_correct D val enc dec junk junkb code junk_len junkb_len 0 17); auto.
  - apply Forall_impl with (2 := F). intros [|]; cbn; auto; contradiction.
  - eapply asks_all_pos; eauto.
Qed.
Lemma bp_br_requests qs ss (h0 : heap R) : Forall (is_bp_br D) qs -> Forall2 (asks D val junk) qs ss -> tails_fit R 0 ss ->
  exists outs st h', run_requests D val enc dec junk junkb qs None h0 = Some (outs, st, h') /\ Forall (fun r => fst r = Ok tt) outs /\
  concat (map snd outs) = map (overlap_add R Rplus Rmult 0%R ss) (seq 0 (length (concat (map fst ss)))).
Proof.
  intros F H T. apply (requests_correct D val enc dec junk junkb code junk_len junkb_len 1 33); auto.
  - apply Forall_impl with (2 := F). intros [|]; cbn; auto; contradiction.
  - eapply asks_all_pos; eauto.
Qed.

Lemma same_fit (k : list R) inputs : forall prev, prev <= length k -> tails_fit R prev (map (fun a => (a, k)) inputs).
Proof. induction inputs as [|a l IH]; intros prev Hp; cbn; auto; split; [lia|apply IH; lia]. Qed.

(** one setting for a whole stream *)
Lemma lp_hp_stream c t b len (inputs : list (list R)) (h0 : heap R) :
  (0 < val t < 4)%R -> kernel_length (val t) len -> (4 / val t <= 4294967295)%R -> (forall raw, raw_kernel (val c) len raw -> gain raw <> 0%R) ->
  exists k outs st h', (if (b =? 0)%Z then low_pass_kernel (val c) len k else high_pass_kernel (val c) len k) /\
  run_requests D val enc dec junk junkb (map (fun a => LpHp a c t b) inputs) None h0 = Some (outs, st, h') /\ Forall (fun r => fst r = Ok tt) outs /\
  concat (map snd outs) = conv_samples R 0%R Rplus Rmult (concat inputs) k 0 (length (concat inputs)).
Proof.
  intros Ht Hk H4 Hg. destruct (lp_hp_correct junk (val c) (val t) (negb (b =? 0)%Z) len junk_len Ht Hk H4 Hg) as (k & E & K).
  destruct (lp_hp_requests (map (fun a => LpHp a c t b) inputs) (map (fun a => (a, k)) inputs) h0) as (outs & st & h' & R1 & R2 & R3).
  - apply Forall_forall. intros q Hq. apply in_map_iff in Hq. destruct Hq as (a & <- & _). exact I.
  - clear -E. induction inputs; constructor; auto. cbn. auto.
  - apply same_fit. lia.
  - exists k, outs, st, h'. splits; auto.
    + destruct (b =? 0)%Z; exact K.
    + rewrite R3. rewrite map_map, map_id. unfold conv_samples. apply map_ext. intros x. apply overlap_add_same.
Qed.

(** low pass, band pass, and the same low pass again *)
Lemma switch_result a1 a2 a3 c t b tl th r k1 k2 (h0 : heap R) :
  asks D val junk (LpHp a1 c t b) (a1, k1) -> asks D val junk (BpBr a2 c t tl th r) (a2, k2) -> nth_error (enc tl) 0 = Some b ->
  length k1 <= length a2 + length k2 ->
  exists outs st h', run_requests D val enc dec junk junkb [LpHp a1 c t b; BpBr a2 c t tl th r; LpHp a3 c t b] None h0 = Some (outs, st, h') /\
  Forall (fun r => fst r = Ok tt) outs /\
  concat (map snd outs) = map (overlap_add R Rplus Rmult 0%R [(a1, k1); (a2, k2); (a3, k2)]) (seq 0 (length a1 + length a2 + length a3)).
Proof.
  intros A1 A2 B L. pose proof (asks_pos _ _ A1) as P1. pose proof (asks_pos _ _ A2) as P2. cbn [snd] in P1, P2.
  destruct (request_call D val enc dec junk junkb code junkb_len _ _ A1) as (x1 & L1 & F1 & R1 & X1).
  destruct (request_call D val enc dec junk junkb code junkb_len _ _ A2) as (x2 & L2 & F2 & R2 & X2).
  assert (A3 : asks D val junk (LpHp a3 c t b) (a3, k1)) by (cbn in *; split; [reflexivity|apply A1]).
  destruct (request_call D val enc dec junk junkb code junkb_len _ _ A3) as (x3 & L3 & F3 & R3 & X3).
  cbn zeta in *. cbn [c_in c_f c_args fst snd] in *. assert (x3 = x1) by congruence. subst x3.
  assert (S : firstn 17 x2 = x1).
  { destruct (lp_hp_args_ok D val enc dec junkb code junkb_len c t b) as (y1 & Y1 & Y2 & Y3 & Y4 & Y5). assert (y1 = x1) by congruence. subst y1.
    destruct (bp_br_args_ok D val enc dec junkb code junkb_len c t tl th r) as (y2 & Z1 & Z2 & Z3 & Z4 & Z5 & Z6 & Z7). assert (y2 = x2) by congruence. subst y2.
    apply nth_error_ext. intro i. destruct (Nat.lt_ge_cases i 17) as [Hi|Hi].
    - rewrite nth_error_firstn by exact Hi. destruct (Nat.lt_ge_cases i 8) as [H8|H8].
      + pose proof (slice_get _ _ _ _ i Y3 H8) as E1. pose proof (slice_get _ _ _ _ i Z3 H8) as E2. cbn [Nat.add] in E1, E2. congruence.
      + destruct (Nat.lt_ge_cases i 16) as [H16|H16].
        * pose proof (slice_get _ _ _ _ (i - 8) Y4 ltac:(lia)) as E1. pose proof (slice_get _ _ _ _ (i - 8) Z4 ltac:(lia)) as E2.
          replace (8 + (i - 8)) with i in E1, E2 by lia. congruence.
        * assert (i = 16) by lia. subst i. pose proof (slice_get _ _ _ _ 0 Z5 ltac:(lia)) as E2. cbn [Nat.add] in E2. unfold aget in Y5. congruence.
    - rewrite (proj2 (nth_error_None (firstn 17 x2) i)), (proj2 (nth_error_None x1 i)); [reflexivity|lia|rewrite firstn_length; lia]. }
  destruct (filter_first R 0%R Rplus Rmult ir_f junk junkb junk_len junkb_len h0 0 x1 k1 a1 (junk (length a1)) F1 P1 (junk_len _))
    as (h1 & sp & s1 & buf1 & irp1 & cl1 & o1 & E1 & I1 & G1 & N1 & W1 & O1 & V1 & _).
  destruct (filter_next R 0%R Rplus Rmult ir_f junk junkb junk_len junkb_len h0 h1 sp s1 buf1 irp1 k1 cl1 1 x2 k2 a2 (junk (length a2)) I1 F2 P2 (junk_len _))
    as (h2 & s2 & buf2 & irp2 & k2' & cl2 & o2 & E2 & I2 & G2 & N2 & W2 & O2 & U2 & _ & _ & V2).
  destruct U2 as [->|(U & _)]; [|congruence]. destruct (V2 [(a1, k1)] V1) as [Ho2 V3]; [lia|].
  assert (G : st_ir_f s2 = 0) by congruence.
  destruct (filter_same R 0%R Rplus Rmult ir_f junk junkb junk_len junkb_len h0 h2 sp s2 buf2 irp2 k2 cl2 x1 a3 (junk (length a3)) I2) as (h3 & o3 & E3 & V4).
  - congruence.
  - rewrite L1, <- S, <- W2, firstn_firstn. f_equal. lia.
  - apply junk_len.
  - rewrite G in E3. specialize (V4 _ V3). rewrite R1, E1. cbn [bind]. rewrite R2, E2. cbn [bind]. rewrite R3, E3. cbn [bind run_requests].
    do 3 eexists. split; [reflexivity|]. split; [repeat constructor|]. cbn [map snd concat]. rewrite app_nil_r, O1, Ho2, V4.
    change ([(a1, k1)] ++ [(a2, k2)]) with [(a1, k1); (a2, k2)]. change ([(a1, k1); (a2, k2)] ++ [(a3, k2)]) with [(a1, k1); (a2, k2); (a3, k2)].
    assert (T1 : total R [(a1, k1)] = length a1) by (unfold total; cbn; now rewrite app_nil_r).
    assert (T2 : total R [(a1, k1); (a2, k2)] = length a1 + length a2) by (unfold total; cbn; rewrite app_nil_r, app_length; reflexivity).
    rewrite T1, T2. rewrite !seq_app, !map_app. unfold outputs. rewrite <- app_assoc. f_equal; [|f_equal].
    + apply map_ext_in. intros x Hx. apply in_seq in Hx. symmetry. apply (overlap_add_prefixes R 0%R Rplus Rmult ir_f junk junkb junk_len junkb_len h0 [(a2, k2); (a3, k2)] [(a1, k1)]). rewrite T1. lia.
    + apply map_ext_in. intros x Hx. apply in_seq in Hx. symmetry. apply (overlap_add_prefixes R 0%R Rplus Rmult ir_f junk junkb junk_len junkb_len h0 [(a3, k2)] [(a1, k1); (a2, k2)]). rewrite T2. lia.
Qed.

(** the kernel in use then has no gain where the requested one has gain one *)
Lemma switch_kernels a1 a2 c t tl th k1 k2 : (0 < val c)%R -> (val t < 1 / 2)%R ->
  asks D val junk (LpHp a1 c t 0) (a1, k1) -> asks D val junk (BpBr a2 c t tl th 0) (a2, k2) -> gain k1 = 1%R /\ gain k2 = 0%R.
Proof.
  intros Hc Ht [_ E1] [_ E2]. cbn [snd] in E1, E2. change (negb (0 =? 0)%Z) with false in E1, E2. split; [exact (proj1 (lp_hp_gain_symmetric _ _ _ _ _ junk_len E1))|].
  destruct (lp_hp_ir junk (val c) (val tl) true) as [hp|] eqn:Eh.
  2: { unfold bp_br_ir in E2. destruct (Rle_dec (val c) 0); [lra|]. destruct (Rle_dec (1 / 2) (val t)); [lra|]. rewrite Eh in E2. discriminate. }
  destruct (lp_hp_ir junk (val t) (val th) false) as [lp|] eqn:El.
  2: { unfold bp_br_ir in E2. destruct (Rle_dec (val c) 0); [lra|]. destruct (Rle_dec (1 / 2) (val t)); [lra|]. rewrite Eh in E2. cbn [bind] in E2. rewrite El in E2. discriminate. }
  destruct (band_pass_inside junk _ _ _ _ lp hp junk_len Hc Ht Eh El) as (k' & E & _ & G & _). rewrite E in E2. injection E2 as <-. exact G.
Qed.
End Proofs.
