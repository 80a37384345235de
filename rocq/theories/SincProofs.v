From Coq Require Import Reals.
From Verif Require Import Base ConvolveModel ConvolveSpec ConvolveProofs FilterModel FilterSpec FilterProofs FilterFinal KerModel KerSpec Ker2Proofs SincModel SincSpec.
From Coq Require Import ZifyBool ZifyNat Lia.
Open Scope nat_scope.

Lemma slice_blit_same {A} (src dst dst' : list A) d n : blit src 0 dst d n = Some dst' -> length src = n -> slice dst' d n = Some src.
Proof.
  intros E L. assert (B : d + n <= length dst').
  { rewrite (blit_length _ _ _ _ _ _ E). unfold blit in E. apply bind_some in E. destruct E as [l [E1 E2]].
    unfold splice in E2. destruct (Nat.leb_spec (d + length l) (length dst)); [|discriminate]. rewrite (slice_length _ _ _ _ E1) in *. lia. }
  rewrite slice_some by exact B. f_equal. apply nth_error_ext. intro i. destruct (Nat.lt_ge_cases i n) as [H|H].
  - rewrite nth_error_firstn, nth_error_skipn by lia. rewrite (blit_get _ _ _ _ _ _ _ E). 
    replace ((d <=? d + i) && (d + i <? d + n)) with true by lia. f_equal. lia.
  - rewrite (proj2 (nth_error_None src i)) by lia. apply nth_error_None. rewrite firstn_length. lia.
Qed.
Lemma slice_ext {A} (a b : list A) d n : length a = length b -> (forall i, d <= i < d + n -> nth_error a i = nth_error b i) -> slice a d n = slice b d n.
Proof.
  intros HL H. unfold slice. rewrite HL. destruct (d + n <=? length b) eqn:C; [|reflexivity]. f_equal. apply nth_error_ext. intro i.
  destruct (Nat.lt_ge_cases i n) as [Hi|Hi].
  - rewrite !nth_error_firstn, !nth_error_skipn by lia. apply H. lia.
  - rewrite (proj2 (nth_error_None (firstn n (skipn d a)) i)), (proj2 (nth_error_None (firstn n (skipn d b)) i)); [reflexivity| |]; rewrite firstn_length; lia.
Qed.
Lemma slice_blit_other {A} (src dst dst' : list A) d n d' n' : blit src 0 dst d n = Some dst' -> (d + n <= d' \/ d' + n' <= d) -> slice dst' d' n' = slice dst d' n'.
Proof.
  intros E H. apply slice_ext; [exact (blit_length _ _ _ _ _ _ E)|]. intros i Hi. rewrite (blit_get _ _ _ _ _ _ _ E).
  replace ((d <=? i) && (i <? d + n)) with false by lia. reflexivity.
Qed.
Lemma slice_aset_other {A} (a a' : list A) p x d n : aset a p x = Some a' -> (p < d \/ d + n <= p) -> slice a' d n = slice a d n.
Proof.
  intros E H. apply slice_ext; [exact (aset_length _ _ _ _ E)|]. intros i Hi. rewrite (aset_get _ _ _ _ _ E). replace (i =? p) with false by lia. reflexivity.
Qed.

Section Proofs.
Variable D : Type.
Variable val : D -> R.
Variable enc : D -> list Z.
Variable dec : list Z -> D.
Variable junk : nat -> list R.
Variable junkb : nat -> list Z.
Hypothesis code : encoding D enc dec.
Hypothesis junk_len : forall n, length (junk n) = n.
Hypothesis junkb_len : forall n, length (junkb n) = n.
Notation ir_f := (sinc_ir_f D val dec junk).

Lemma enc_len x : length (enc x) = 8.
Proof. exact (proj1 (code x)). Qed.
Lemma dec_enc x : dec (enc x) = x.
Proof. exact (proj2 (code x)). Qed.

Lemma lp_hp_args_ok c t b : exists a, lp_hp_args D enc junkb c t b = Some a /\ length a = 17 /\
  slice a 0 8 = Some (enc c) /\ slice a 8 8 = Some (enc t) /\ aget a 16 = Some b.
Proof.
  unfold lp_hp_args.
  destruct (blit_some (enc c) 0 (junkb 17) 0 8) as [a1 E1]; [rewrite enc_len; lia|rewrite junkb_len; lia|]. rewrite E1. cbn [bind].
  pose proof (blit_length _ _ _ _ _ _ E1) as L1. rewrite junkb_len in L1.
  destruct (blit_some (enc t) 0 a1 8 8) as [a2 E2]; [rewrite enc_len; lia|rewrite L1; lia|]. rewrite E2. cbn [bind].
  pose proof (blit_length _ _ _ _ _ _ E2) as L2. rewrite L1 in L2.
  destruct (aset_some a2 16 b) as [a3 E3]; [lia|]. exists a3. splits.
  - exact E3.
  - rewrite (aset_length _ _ _ _ E3). exact L2.
  - rewrite (slice_aset_other _ _ _ _ 0 8 E3) by lia. rewrite (slice_blit_other _ _ _ _ _ 0 8 E2) by lia. apply (slice_blit_same _ _ _ _ _ E1). apply enc_len.
  - rewrite (slice_aset_other _ _ _ _ 8 8 E3) by lia. apply (slice_blit_same _ _ _ _ _ E2). apply enc_len.
  - unfold aget. rewrite (aset_get _ _ _ _ _ E3). reflexivity.
Qed.

Lemma bp_br_args_ok cl ch tl th b : exists a, bp_br_args D enc junkb cl ch tl th b = Some a /\ length a = 33 /\
  slice a 0 8 = Some (enc cl) /\ slice a 8 8 = Some (enc ch) /\ slice a 16 8 = Some (enc tl) /\ slice a 24 8 = Some (enc th) /\ aget a 32 = Some b.
Proof.
  unfold bp_br_args.
  destruct (blit_some (enc cl) 0 (junkb 33) 0 8) as [a1 E1]; [rewrite enc_len; lia|rewrite junkb_len; lia|]. rewrite E1. cbn [bind].
  pose proof (blit_length _ _ _ _ _ _ E1) as L1. rewrite junkb_len in L1.
  destruct (blit_some (enc ch) 0 a1 8 8) as [a2 E2]; [rewrite enc_len; lia|rewrite L1; lia|]. rewrite E2. cbn [bind].
  pose proof (blit_length _ _ _ _ _ _ E2) as L2. rewrite L1 in L2.
  destruct (blit_some (enc tl) 0 a2 16 8) as [a3 E3]; [rewrite enc_len; lia|rewrite L2; lia|]. rewrite E3. cbn [bind].
  pose proof (blit_length _ _ _ _ _ _ E3) as L3. rewrite L2 in L3.
  destruct (blit_some (enc th) 0 a3 24 8) as [a4 E4]; [rewrite enc_len; lia|rewrite L3; lia|]. rewrite E4. cbn [bind].
  pose proof (blit_length _ _ _ _ _ _ E4) as L4. rewrite L3 in L4.
  destruct (aset_some a4 32 b) as [a5 E5]; [lia|]. exists a5. splits.
  - exact E5.
  - rewrite (aset_length _ _ _ _ E5). exact L4.
  - rewrite (slice_aset_other _ _ _ _ 0 8 E5), (slice_blit_other _ _ _ _ _ 0 8 E4), (slice_blit_other _ _ _ _ _ 0 8 E3), (slice_blit_other _ _ _ _ _ 0 8 E2) by lia.
    apply (slice_blit_same _ _ _ _ _ E1). apply enc_len.
  - rewrite (slice_aset_other _ _ _ _ 8 8 E5), (slice_blit_other _ _ _ _ _ 8 8 E4), (slice_blit_other _ _ _ _ _ 8 8 E3) by lia.
    apply (slice_blit_same _ _ _ _ _ E2). apply enc_len.
  - rewrite (slice_aset_other _ _ _ _ 16 8 E5), (slice_blit_other _ _ _ _ _ 16 8 E4) by lia. apply (slice_blit_same _ _ _ _ _ E3). apply enc_len.
  - rewrite (slice_aset_other _ _ _ _ 24 8 E5) by lia. apply (slice_blit_same _ _ _ _ _ E4). apply enc_len.
  - unfold aget. rewrite (aset_get _ _ _ _ _ E5). reflexivity.
Qed.

(** the call of the convolution filter that a request makes *)
Lemma request_call (q : request D) (s : list R * list R) : asks D val junk q s ->
  exists a, let c := {| c_in := fst s; c_f := (match q with LpHp _ _ _ _ => 0 | _ => 1 end); c_args := a |} in
  length a = (match q with LpHp _ _ _ _ => 17 | _ => 33 end) /\ ir_f (c_f R c) a = Some (snd s) /\
  (forall rest os h, run_requests D val enc dec junk junkb (q :: rest) os h =
    bind (convolution_filter R 0%R Rplus Rmult ir_f (fun _ => true) junk junkb (c_in R c) (c_f R c) (c_args R c) (length (c_args R c)) os (junk (length (c_in R c))) h)
      (fun '(r, out, os, h) => bind (run_requests D val enc dec junk junkb rest os h) (fun '(outs, os, h) => Some ((r, out) :: outs, os, h)))) /\
  match q with
  | LpHp _ c t b => lp_hp_args D enc junkb c t b = Some a
  | BpBr _ cl ch tl th b => bp_br_args D enc junkb cl ch tl th b = Some a
  end.
Proof.
  destruct s as [i k]. destruct q as [input c t b|input cl ch tl th b]; cbn [asks fst snd]; intros [<- E].
  - destruct (lp_hp_args_ok c t b) as (a & Ea & La & S1 & S2 & S3). exists a. cbn zeta. cbn [c_in c_f c_args]. splits; auto.
    + unfold sinc_ir_f. cbn [Nat.eqb]. unfold lp_hp_ir_f. rewrite S1. cbn [bind]. rewrite S2. cbn [bind]. rewrite S3. cbn [bind]. rewrite !dec_enc. exact E.
    + intros rest os h. cbn [run_requests]. unfold windowed_sinc_lp_hp. rewrite Ea, La. cbn [bind]. reflexivity.
  - destruct (bp_br_args_ok cl ch tl th b) as (a & Ea & La & S1 & S2 & S3 & S4 & S5). exists a. cbn zeta. cbn [c_in c_f c_args]. splits; auto.
    + unfold sinc_ir_f. cbn [Nat.eqb]. unfold bp_br_ir_f. rewrite S1. cbn [bind]. rewrite S2. cbn [bind]. rewrite S3. cbn [bind]. rewrite S4. cbn [bind]. rewrite S5. cbn [bind].
      rewrite !dec_enc. exact E.
    + intros rest os h. cbn [run_requests]. unfold windowed_sinc_bp_br. rewrite Ea, La. cbn [bind]. reflexivity.
Qed.

Lemma requests_calls (f n : nat) (qs : list (request D)) (ss : list (list R * list R)) :
  Forall2 (asks D val junk) qs ss -> Forall (fun q => match q with LpHp _ _ _ _ => f = 0 /\ n = 17 | _ => f = 1 /\ n = 33 end) qs ->
  exists calls, map (segment R ir_f) calls = ss /\ map (c_in R) calls = map fst ss /\
  Forall (fun c => c_f R c = f /\ length (c_args R c) = n) calls /\ Forall2 (fun c s => ir_f (c_f R c) (c_args R c) = Some (snd s)) calls ss /\
  forall os h, run_requests D val enc dec junk junkb qs os h = run_calls R 0%R Rplus Rmult ir_f (fun _ => true) junk junkb calls os h.
Proof.
  intros H. induction H as [|q s qs ss Hq Hs IH]; intro F.
  - exists []. splits; auto.
  - apply Forall_cons_iff in F. destruct F as [Fq F]. destruct (IH F) as (calls & S1 & S2 & S3 & S4 & S5).
    destruct (request_call q s Hq) as (a & La & Ea & Ra & _). cbn zeta in *. cbn [c_f c_args c_in] in *.
    exists ({| c_in := fst s; c_f := (match q with LpHp _ _ _ _ => 0 | _ => 1 end); c_args := a |} :: calls). splits.
    + cbn [map]. rewrite S1. f_equal. unfold segment. cbn [c_in c_f c_args]. rewrite Ea. now destruct s.
    + cbn [map c_in]. now rewrite S2.
    + constructor; [|exact S3]. cbn [c_f c_args]. destruct q; lia.
    + constructor; [exact Ea|exact S4].
    + intros os h. rewrite Ra. cbn [run_calls c_in c_f c_args]. destruct (convolution_filter _ _ _ _ _ _ _ _ _ _ _ _ _ _ _) as [[[[r out] os'] h']|]; cbn [bind]; [|reflexivity].
      rewrite S5. reflexivity.
Qed.

Lemma requests_correct (f n : nat) (qs : list (request D)) (ss : list (list R * list R)) (h0 : heap R) :
  Forall2 (asks D val junk) qs ss -> Forall (fun q => match q with LpHp _ _ _ _ => f = 0 /\ n = 17 | _ => f = 1 /\ n = 33 end) qs ->
  Forall (fun s => 0 < length (snd s)) ss -> tails_fit R 0 ss ->
  exists outs st h', run_requests D val enc dec junk junkb qs None h0 = Some (outs, st, h') /\ Forall (fun r => fst r = Ok tt) outs /\
  concat (map snd outs) = map (overlap_add R Rplus Rmult 0%R ss) (seq 0 (length (concat (map fst ss)))).
Proof.
  intros H F HP HT. destruct (requests_calls f n qs ss H F) as (calls & S1 & S2 & S3 & S4 & S5). rewrite S5.
  destruct (filter_requested_response R 0%R Rplus Rmult ir_f junk junkb h0 f n calls junk_len junkb_len S3) as (outs & st & h' & E & Fo & C).
  - clear -S4 HP. induction S4; constructor; apply Forall_cons_iff in HP; destruct HP; auto. exists (snd y). auto.
  - now rewrite S1.
  - exists outs, st, h'. rewrite S1, S2 in C. splits; auto.
Qed.
End Proofs.
