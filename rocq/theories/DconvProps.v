(** Properties of convolution in double precision: C111 *)
From Coq Require Import ZArith Reals List Lia Lra.
From Flocq Require Import Core BinarySingleNaN.
From Verif Require Import Base DblModel DblSpec DblProofs Dbl2Proofs ConvolveModel ConvolveSpec DconvSpec DconvProofs.
Import ListNotations.
Open Scope R_scope.

(** C111: for every division of a signal into segments all samples, and the carryover, are finite and the exact convolution up to an error that grows with the length of the
    impulse response only *)
Theorem c111_stream : forall junk b segments, b <> [] -> (forall n, length (junk n) = n) -> Forall finite b -> Forall (Forall finite) segments -> INR (length b) <= IZR (2 ^ 50) ->
  (forall k, magnitude (concat segments) b k <= IZR (2 ^ 998)) ->
  exists out carry, convolve_stream f64 fzero fadd fmul junk b (repeat fzero (length b - 1)) segments = Some (out, carry) /\ length out = length (concat segments) /\
    (forall i, (i < length out)%nat -> exists v, nth_error out i = Some v /\ approximates (concat segments) b i v) /\
    (forall i, (i < length b - 1)%nat -> exists v, nth_error carry i = Some v /\ approximates (concat segments) b (length out + i) v).
Proof. exact stream_ok. Qed.
Print Assumptions c111_stream.
Theorem c111_one : forall a b n, (length a + length b - 1 <= n)%nat -> Forall finite a -> Forall finite b -> INR (Nat.min (length a) (length b)) <= IZR (2 ^ 50) -> (forall k, magnitude a b k <= IZR (2 ^ 998)) ->
  exists out, sp_convolve_one f64 fadd fmul a (length a) b (length b) (repeat fzero n) = Some out /\ length out = n /\ forall i, (i < n)%nat -> exists v, nth_error out i = Some v /\ approximates a b i v.
Proof. exact one_ok. Qed.
Print Assumptions c111_one.
(** C111: samples of at most M and an impulse response whose magnitudes sum to G give at most M G: with G = 1 a filter does not increase the level *)
Theorem c111_level : forall a b M G k, Forall (fun x => Rabs (real x) <= M) a -> 0 <= M -> fold_right Rplus 0 (map (fun x => Rabs (real x)) b) <= G -> magnitude a b k <= M * G.
Proof. exact magnitude_simple. Qed.
Print Assumptions c111_level.
(** samples of at most one and the response 1/4 1/2 1/4 meet the hypotheses, and the results are exact *)
Example c111_case : let b := [fmake 1 (-2); fmake 1 (-1); fmake 1 (-2)] in let s := [[fmake 1 0; fmake (-1) 0]; [fmake 1 (-1)]] in
  Forall finite b /\ Forall (Forall finite) s /\ (forall k, magnitude (concat s) b k <= 1) /\
  option_map (fun r => (map (@B2SF 53 1024) (fst r), map (@B2SF 53 1024) (snd r))) (convolve_stream f64 fzero fadd fmul (repeat (fmake 9 0)) b (repeat fzero 2) s) =
  Some (map (@B2SF 53 1024) [fmake 1 (-2); fmake 1 (-2); fmake (-1) (-3)], map (@B2SF 53 1024) [fzero; fmake 1 (-3)]).
Proof.
  intros b s. split; [repeat constructor|]. split; [repeat constructor|]. split; [|vm_compute; reflexivity].
  intros k. destruct (fmake_exact 1 (-2)) as [_ e1]; try lia. destruct (fmake_exact 1 (-1)) as [_ e2]; try lia. destruct (fmake_exact 1 0) as [_ e3]; try lia. destruct (fmake_exact (-1) 0) as [_ e4]; try lia.
  change (bpow radix2 (-2)) with (/ 4) in e1. change (bpow radix2 (-1)) with (/ 2) in *. change (bpow radix2 0) with 1 in *. rewrite Rmult_1_l in *.
  replace 1 with (1 * 1) by ring. apply c111_level; [|lra|].
  - unfold s. cbn [concat app]. repeat (apply Forall_cons; [rewrite ?e2, ?e3, ?e4; apply Rabs_le; lra|]). apply Forall_nil.
  - unfold b. cbn [map fold_right]. rewrite e1, e2. rewrite !Rabs_pos_eq by lra. lra.
Qed.
