(** The windowed sinc filters for streams. *)
From Coq Require Import Reals Lra.
From Verif Require Import Base ConvolveSpec FilterModel FilterSpec KerModel KerSpec Ker2Proofs Ker3Proofs KerFejer SincModel SincSpec SincProofs Sinc2Proofs.
From Coq Require Import Lia.
Open Scope nat_scope.

(** C07: for every cutoff from zero to half the rate and every transition below 4 the sum before scaling is at least one, so the kernel is defined *)
Theorem c07_cutoff_range :
  forall (junk : nat -> list R) (cutoff transition : R) (is_high_pass : bool) (len : nat), (forall n, length (junk n) = n) ->
  (0 < transition < 4)%R -> kernel_length transition len -> (4 / transition <= 4294967295)%R -> (0 <= cutoff <= 1 / 2)%R ->
  (forall raw, raw_kernel cutoff len raw -> (1 <= gain raw)%R) /\
  exists h, lp_hp_ir junk cutoff transition is_high_pass = Some h /\ (if is_high_pass then high_pass_kernel cutoff len h else low_pass_kernel cutoff len h).
Proof. exact range_kernel. Qed.
Print Assumptions c07_cutoff_range.
(** C07: and with it band pass and band reject for any two cutoffs inside of the range *)
Theorem c07_band_range :
  forall (junk : nat -> list R) (cutoff_l cutoff_h transition_l transition_h : R), (forall n, length (junk n) = n) ->
  (0 < cutoff_l <= 1 / 2)%R -> (0 <= cutoff_h < 1 / 2)%R -> (0 < transition_l < 4)%R -> (0 < transition_h < 4)%R ->
  (4 / transition_l <= 4294967295)%R -> (4 / transition_h <= 4294967295)%R ->
  exists len_l len_h reject pass lp hp, kernel_length transition_l len_l /\ kernel_length transition_h len_h /\
    bp_br_ir junk cutoff_l cutoff_h transition_l transition_h true = Some reject /\ bp_br_ir junk cutoff_l cutoff_h transition_l transition_h false = Some pass /\
    (low_pass_kernel cutoff_l len_l lp /\ high_pass_kernel cutoff_h len_h hp /\ (if len_h <? len_l then centered_sum lp hp reject else centered_sum hp lp reject) /\ gain reject = 1%R /\ symmetric reject) /\
    exists lp' hp', high_pass_kernel cutoff_l len_l hp' /\ low_pass_kernel cutoff_h len_h lp' /\ length pass = len_l + len_h - 1 /\ gain pass = 0%R /\ symmetric pass /\
      forall w, response_re pass w = (response_re lp' w * response_re hp' w - response_im lp' w * response_im hp' w)%R /\
                response_im pass w = (response_re lp' w * response_im hp' w + response_im lp' w * response_re hp' w)%R.
Proof. exact range_bands. Qed.
Print Assumptions c07_band_range.

Lemma odd_length (n : nat) (t : R) : Nat.odd n = true -> (4 / t = INR n)%R -> kernel_length t n.
Proof. intros Ho E. split; [exact Ho|]. rewrite E. split; [lra|]. intros k _ H. now apply INR_le. Qed.
Lemma length_9 : kernel_length (4 / 9) 9.
Proof. apply odd_length; [reflexivity|]. cbn [INR]. field. Qed.
Lemma length_3 : kernel_length (12 / 9) 3.
Proof. apply odd_length; [reflexivity|]. cbn [INR]. field. Qed.
Example c07_cutoff_range_instance : (0 < 4 / 9 < 4)%R /\ kernel_length (4 / 9) 9 /\ (4 / (4 / 9) <= 4294967295)%R /\ (0 <= 3 / 8 <= 1 / 2)%R /\ (0 < 1 / 9 <= 1 / 2)%R /\ (0 <= 3 / 8 < 1 / 2)%R.
Proof. splits; try lra. exact length_9. Qed.

(** C87: a stream filtered in any division into calls is the convolution with the low pass or high pass kernel of the given settings *)
Theorem c87_lp_hp_stream :
  forall (D : Type) (val : D -> R) (enc : D -> list Z) (dec : list Z -> D) (junk : nat -> list R) (junkb : nat -> list Z),
  encoding D enc dec -> (forall n, length (junk n) = n) -> (forall n, length (junkb n) = n) ->
  forall (cutoff transition : D) (is_high_pass : Z) (len : nat) (inputs : list (list R)) (h0 : heap R),
  (0 < val transition < 4)%R -> kernel_length (val transition) len -> (4 / val transition <= 4294967295)%R ->
  (forall raw, raw_kernel (val cutoff) len raw -> gain raw <> 0%R) ->
  exists k outs st h', (if (is_high_pass =? 0)%Z then low_pass_kernel (val cutoff) len k else high_pass_kernel (val cutoff) len k) /\
  run_requests D val enc dec junk junkb (map (fun a => LpHp a cutoff transition is_high_pass) inputs) None h0 = Some (outs, st, h') /\
  Forall (fun r => fst r = Ok tt) outs /\
  concat (map snd outs) = conv_samples R 0%R Rplus Rmult (concat inputs) k 0 (length (concat inputs)).
Proof. exact lp_hp_stream. Qed.
Print Assumptions c87_lp_hp_stream.

(** C87: the same for all cutoffs from zero to half the rate, without the condition on the sum *)
Theorem c87_lp_hp_range :
  forall (D : Type) (val : D -> R) (enc : D -> list Z) (dec : list Z -> D) (junk : nat -> list R) (junkb : nat -> list Z),
  encoding D enc dec -> (forall n, length (junk n) = n) -> (forall n, length (junkb n) = n) ->
  forall (cutoff transition : D) (is_high_pass : Z) (len : nat) (inputs : list (list R)) (h0 : heap R),
  (0 < val transition < 4)%R -> kernel_length (val transition) len -> (4 / val transition <= 4294967295)%R -> (0 <= val cutoff <= 1 / 2)%R ->
  exists k outs st h', (if (is_high_pass =? 0)%Z then low_pass_kernel (val cutoff) len k else high_pass_kernel (val cutoff) len k) /\
  run_requests D val enc dec junk junkb (map (fun a => LpHp a cutoff transition is_high_pass) inputs) None h0 = Some (outs, st, h') /\
  Forall (fun r => fst r = Ok tt) outs /\
  concat (map snd outs) = conv_samples R 0%R Rplus Rmult (concat inputs) k 0 (length (concat inputs)).
Proof.
  intros D val enc dec junk junkb code hj hjb c t b len inputs h0 ht hk h4 hc.
  exact (lp_hp_stream D val enc dec junk junkb code hj hjb c t b len inputs h0 ht hk h4 (range_nonzero (val c) (val t) len hc ht hk)).
Qed.
Print Assumptions c87_lp_hp_range.

(** C87: with settings that change from call to call, each segment is filtered with the kernel of its own settings *)
Theorem c87_lp_hp_settings_partial :
  forall (D : Type) (val : D -> R) (enc : D -> list Z) (dec : list Z -> D) (junk : nat -> list R) (junkb : nat -> list Z),
  encoding D enc dec -> (forall n, length (junk n) = n) -> (forall n, length (junkb n) = n) ->
  forall (qs : list (request D)) (ss : list (list R * list R)) (h0 : heap R),
  Forall (is_lp_hp D) qs -> Forall2 (asks D val junk) qs ss -> tails_fit R 0 ss ->
  exists outs st h', run_requests D val enc dec junk junkb qs None h0 = Some (outs, st, h') /\ Forall (fun r => fst r = Ok tt) outs /\
  concat (map snd outs) = map (overlap_add R Rplus Rmult 0%R ss) (seq 0 (length (concat (map fst ss)))).
Proof. exact lp_hp_requests. Qed.
Print Assumptions c87_lp_hp_settings_partial.
Theorem c87_bp_br_settings_partial :
  forall (D : Type) (val : D -> R) (enc : D -> list Z) (dec : list Z -> D) (junk : nat -> list R) (junkb : nat -> list Z),
  encoding D enc dec -> (forall n, length (junk n) = n) -> (forall n, length (junkb n) = n) ->
  forall (qs : list (request D)) (ss : list (list R * list R)) (h0 : heap R),
  Forall (is_bp_br D) qs -> Forall2 (asks D val junk) qs ss -> tails_fit R 0 ss ->
  exists outs st h', run_requests D val enc dec junk junkb qs None h0 = Some (outs, st, h') /\ Forall (fun r => fst r = Ok tt) outs /\
  concat (map snd outs) = map (overlap_add R Rplus Rmult 0%R ss) (seq 0 (length (concat (map fst ss)))).
Proof. exact bp_br_requests. Qed.
Print Assumptions c87_bp_br_settings_partial.

(** settings for examples: ninths, in the second of eight bytes *)
Definition demo_val (z : Z) : R := (IZR z / 9)%R.
Definition demo_enc (z : Z) : list Z := [0; z; 0; 0; 0; 0; 0; 0]%Z.
Definition demo_dec (l : list Z) : Z := nth 1 l 0%Z.
Definition demo_junk (n : nat) : list R := repeat 7%R n.
Definition demo_junkb (n : nat) : list Z := repeat 7%Z n.
Lemma demo_code : encoding Z demo_enc demo_dec.
Proof. intro x. split; reflexivity. Qed.
Lemma demo_junk_len n : length (demo_junk n) = n.
Proof. apply repeat_length. Qed.
Lemma demo_lp : exists k, lp_hp_ir demo_junk (demo_val 1) (demo_val 4) false = Some k /\ length k = 9.
Proof.
  destruct (low_cutoff_defined demo_junk (demo_val 1) (demo_val 4) false 9 demo_junk_len) as (k & E & H); unfold demo_val; try lra.
  - exact length_9.
  - cbn [INR]. lra.
  - exists k. split; [exact E|apply H].
Qed.
Lemma demo_bp : exists k, bp_br_ir demo_junk (demo_val 1) (demo_val 4) (demo_val 4) (demo_val 12) false = Some k /\ length k = 11.
Proof.
  destruct (low_cutoff_defined demo_junk (demo_val 1) (demo_val 4) true 9 demo_junk_len) as (hp & E1 & H1); unfold demo_val; try lra.
  - exact length_9.
  - cbn [INR]. lra.
  - destruct (low_cutoff_defined demo_junk (demo_val 4) (demo_val 12) false 3 demo_junk_len) as (lp & E2 & H2); unfold demo_val; try lra.
    + exact length_3.
    + cbn [INR]. lra.
    + destruct (band_pass_inside demo_junk (1 / 9) (4 / 9) (4 / 9) (12 / 9) lp hp demo_junk_len ltac:(lra) ltac:(lra) E1 E2) as (k & E & _ & _ & _ & _ & L).
      exists k. split; [exact E|]. assert (length lp = 3) by apply H2. assert (length hp = 9) by apply H1. lia.
Qed.
Example c87_instance :
  encoding Z demo_enc demo_dec /\ (forall n, length (demo_junk n) = n) /\ (forall n, length (demo_junkb n) = n) /\
  (0 < demo_val 4 < 4)%R /\ kernel_length (demo_val 4) 9 /\ (4 / demo_val 4 <= 4294967295)%R /\ (forall raw, raw_kernel (demo_val 1) 9 raw -> gain raw <> 0%R).
Proof.
  splits; try (unfold demo_val; lra).
  - exact demo_code.
  - exact demo_junk_len.
  - intro. apply repeat_length.
  - exact length_9.
  - intros raw H. pose proof (low_cutoff_gain (demo_val 1) 9 raw) as G. assert (1 <= gain raw)%R; [|lra]. apply G; auto; unfold demo_val; cbn [INR]; try lra. lia.
Qed.
Example c87_range_instance : (0 <= demo_val 4 <= 1 / 2)%R /\ (0 < demo_val 4 < 4)%R. Proof. unfold demo_val. lra. Qed.
Example c87_settings_instance : exists k1 k2, let qs := [LpHp [1; 2; 3]%R 1%Z 4%Z 0%Z; LpHp [4; 5]%R 1%Z 4%Z 0%Z] in
  Forall (is_lp_hp Z) qs /\ Forall2 (asks Z demo_val demo_junk) qs [([1; 2; 3]%R, k1); ([4; 5]%R, k1)] /\ tails_fit R 0 [([1; 2; 3]%R, k1); ([4; 5]%R, k1)] /\
  let qs := [BpBr [1; 2; 3]%R 1%Z 4%Z 4%Z 12%Z 0%Z] in
  Forall (is_bp_br Z) qs /\ Forall2 (asks Z demo_val demo_junk) qs [([1; 2; 3]%R, k2)] /\ tails_fit R 0 [([1; 2; 3]%R, k2)].
Proof.
  destruct demo_lp as (k1 & E1 & L1). destruct demo_bp as (k2 & E2 & L2). exists k1, k2. cbn zeta.
  splits; repeat constructor; cbn; auto; try lia; rewrite L1; lia.
Qed.

(** C87: one state for both filters, low pass, band pass, and the same low pass again: the third call filters with the kernel of the second.
    That has a gain of zero for constant signals, where the requested low pass has a gain of one. The condition on the bytes of transition_l is that
    of all numbers with few digits in binary, for example 0.25. *)
Theorem c87_switch_refuted :
  forall (D : Type) (val : D -> R) (enc : D -> list Z) (dec : list Z -> D) (junk : nat -> list R) (junkb : nat -> list Z),
  encoding D enc dec -> (forall n, length (junk n) = n) -> (forall n, length (junkb n) = n) ->
  forall (a1 a2 a3 : list R) (cutoff transition transition_l transition_h : D) (k1 k2 : list R) (h0 : heap R),
  (0 < val cutoff)%R -> (val transition < 1 / 2)%R ->
  asks D val junk (LpHp a1 cutoff transition 0) (a1, k1) ->
  asks D val junk (BpBr a2 cutoff transition transition_l transition_h 0) (a2, k2) ->
  nth_error (enc transition_l) 0 = Some 0%Z -> length k1 <= length a2 + length k2 ->
  gain k1 = 1%R /\ gain k2 = 0%R /\
  exists outs st h', run_requests D val enc dec junk junkb
    [LpHp a1 cutoff transition 0; BpBr a2 cutoff transition transition_l transition_h 0; LpHp a3 cutoff transition 0] None h0 = Some (outs, st, h') /\
  Forall (fun r => fst r = Ok tt) outs /\
  concat (map snd outs) = map (overlap_add R Rplus Rmult 0%R [(a1, k1); (a2, k2); (a3, k2)]) (seq 0 (length a1 + length a2 + length a3)).
Proof.
  intros D val enc dec junk junkb code hj hjb a1 a2 a3 c t tl th k1 k2 h0 Hc Ht A1 A2 B L.
  destruct (switch_kernels D val junk hj a1 a2 c t tl th k1 k2 Hc Ht A1 A2) as [G1 G2]. splits; auto.
  exact (switch_result D val enc dec junk junkb code hj hjb a1 a2 a3 c t 0%Z tl th 0%Z k1 k2 h0 A1 A2 B L).
Qed.
Print Assumptions c87_switch_refuted.
Example c87_switch_instance : exists k1 k2,
  (0 < demo_val 1)%R /\ (demo_val 4 < 1 / 2)%R /\ asks Z demo_val demo_junk (LpHp [1; 1]%R 1%Z 4%Z 0) ([1; 1]%R, k1) /\
  asks Z demo_val demo_junk (BpBr [0]%R 1%Z 4%Z 4%Z 12%Z 0) ([0]%R, k2) /\ nth_error (demo_enc 4) 0 = Some 0%Z /\ length k1 <= 1 + length k2.
Proof.
  destruct demo_lp as (k1 & E1 & L1). destruct demo_bp as (k2 & E2 & L2). exists k1, k2. splits; cbn; auto; try (unfold demo_val; lra); lia.
Qed.
