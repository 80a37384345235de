(** Property C115 *)
From Coq Require Import ZArith Reals List Lia Lra.
From Flocq Require Import Core.
From Verif Require Import Base DblModel DblSpec DblProofs Dbl2Proofs KerSpec FftSpec FftModel DfftModel DfftSpec DfftUseProofs.
Import ListNotations.
Open Scope R_scope.

(** C115: for every length below 2^32, every finite input with a sum of magnitudes of at most 2^900, every cosine and sine with an error of at most d and every outcome of the
    allocations, sp_fft with doubles returns. With status 0 all results are finite and differ from the exact transform of the input by at most error_any. Otherwise the status is
    1 and the arrays are unchanged. If no allocation fails then the status is 0. *)
Theorem c115_fft :
  forall (d : R) (fcos fsin : f64 -> f64) (junk : nat -> list f64) (ok : list nat -> bool) (n : nat) (re im : list f64),
  (forall k, length (junk k) = k) -> libm_within d fcos fsin -> 0 <= d <= / 1000000 -> (Z.of_nat n < 2 ^ 32)%Z -> all_finite n re im -> magnitudes n re im <= IZR (2 ^ 900) ->
  exists st re' im', sp_fft64 fcos fsin junk ok n (re, im) = Some (st, (re', im')) /\
    (st = 0%Z /\ near_dft (error_any d n (magnitudes n re im)) n re im re' im' \/ st = 1%Z /\ re' = re /\ im' = im) /\ ((forall p, ok p = true) -> st = 0%Z).
Proof.
  intros d fcos fsin junk ok n re im hj hl hd hn hf hS. destruct (near_any d fcos fsin junk hj hl hd n hn) as (F & h1 & h2). eapply fft64_near; eassumption.
Qed.
Print Assumptions c115_fft.
(** C115: for powers of two, the smaller bound error_power_of_two holds. *)
Theorem c115_fft_power_of_two :
  forall (d : R) (fcos fsin : f64 -> f64) (junk : nat -> list f64) (ok : list nat -> bool) (L : nat) (re im : list f64),
  (forall k, length (junk k) = k) -> libm_within d fcos fsin -> 0 <= d <= / 1000000 -> (L <= 31)%nat -> all_finite (2 ^ L) re im -> magnitudes (2 ^ L) re im <= IZR (2 ^ 900) ->
  exists st re' im', sp_fft64 fcos fsin junk ok (2 ^ L) (re, im) = Some (st, (re', im')) /\
    (st = 0%Z /\ near_dft (error_power_of_two d (2 ^ L) (magnitudes (2 ^ L) re im)) (2 ^ L) re im re' im' \/ st = 1%Z /\ re' = re /\ im' = im) /\ ((forall p, ok p = true) -> st = 0%Z).
Proof.
  intros d fcos fsin junk ok L re im hj hl hd hL hf hS. destruct (near_power d fcos fsin junk hj hl hd L hL) as (F & h1 & h2). eapply fft64_near; eassumption.
Qed.
Print Assumptions c115_fft_power_of_two.
(** C115: likewise for sp_ffti and the inverse transform without scaling. *)
Theorem c115_inverse :
  forall (d : R) (fcos fsin : f64 -> f64) (junk : nat -> list f64) (ok : list nat -> bool) (n : nat) (re im : list f64),
  (forall k, length (junk k) = k) -> libm_within d fcos fsin -> 0 <= d <= / 1000000 -> (Z.of_nat n < 2 ^ 32)%Z -> all_finite n re im -> magnitudes n re im <= IZR (2 ^ 900) ->
  exists st re' im', sp_ffti64 fcos fsin junk ok n (re, im) = Some (st, (re', im')) /\
    (st = 0%Z /\ near_idft (error_any d n (magnitudes n re im)) n re im re' im' \/ st = 1%Z /\ re' = re /\ im' = im) /\ ((forall p, ok p = true) -> st = 0%Z).
Proof.
  intros d fcos fsin junk ok n re im hj hl hd hn hf hS. destruct (near_any d fcos fsin junk hj hl hd n hn) as (F & h1 & h2). eapply ffti64_near; eassumption.
Qed.
Print Assumptions c115_inverse.
Theorem c115_inverse_power_of_two :
  forall (d : R) (fcos fsin : f64 -> f64) (junk : nat -> list f64) (ok : list nat -> bool) (L : nat) (re im : list f64),
  (forall k, length (junk k) = k) -> libm_within d fcos fsin -> 0 <= d <= / 1000000 -> (L <= 31)%nat -> all_finite (2 ^ L) re im -> magnitudes (2 ^ L) re im <= IZR (2 ^ 900) ->
  exists st re' im', sp_ffti64 fcos fsin junk ok (2 ^ L) (re, im) = Some (st, (re', im')) /\
    (st = 0%Z /\ near_idft (error_power_of_two d (2 ^ L) (magnitudes (2 ^ L) re im)) (2 ^ L) re im re' im' \/ st = 1%Z /\ re' = re /\ im' = im) /\ ((forall p, ok p = true) -> st = 0%Z).
Proof.
  intros d fcos fsin junk ok L re im hj hl hd hL hf hS. destruct (near_power d fcos fsin junk hj hl hd L hL) as (F & h1 & h2). eapply ffti64_near; eassumption.
Qed.
Print Assumptions c115_inverse_power_of_two.
(** C115: sp_ffti after sp_fft gives the input times the length, up to the errors of both transforms. [s] bounds the sum of magnitudes of the result of sp_fft. *)
Theorem c115_round_trip :
  forall (d : R) (fcos fsin : f64 -> f64) (junk : nat -> list f64) (ok1 ok2 : list nat -> bool) (n : nat) (re im : list f64),
  (forall k, length (junk k) = k) -> libm_within d fcos fsin -> 0 <= d <= / 1000000 -> (Z.of_nat n < 2 ^ 32)%Z -> (forall p, ok1 p = true) -> (forall p, ok2 p = true) -> all_finite n re im ->
  let e := error_any d n (magnitudes n re im) in let s := INR n * (magnitudes n re im + e) in s <= IZR (2 ^ 900) -> magnitudes n re im <= IZR (2 ^ 900) ->
  exists t re' im', sp_fft64 fcos fsin junk ok1 n (re, im) = Some (0%Z, t) /\ sp_ffti64 fcos fsin junk ok2 n t = Some (0%Z, (re', im')) /\ length re' = n /\ length im' = n /\
    forall k, (k < n)%nat -> finite (nth k re' fzero) /\ finite (nth k im' fzero) /\
      Rabs (real (nth k re' fzero) - INR n * real (nth k re fzero)) <= error_any d n s + INR n * e /\ Rabs (real (nth k im' fzero) - INR n * real (nth k im fzero)) <= error_any d n s + INR n * e.
Proof. intros d fcos fsin junk ok1 ok2 n re im hj hl hd. exact (round_trip64 d fcos fsin junk hj hl hd ok1 ok2 n re im). Qed.
Print Assumptions c115_round_trip.

Definition ints (l : list Z) : list f64 := map f_of_Z l.
Lemma demo_finite : all_finite 3 (ints [1; 2; 4]%Z) (ints [0; 0; 0]%Z) /\ all_finite 4 (ints [1; 2; 3; 4]%Z) (ints [0; 0; 0; 0]%Z).
Proof. split; (split; [reflexivity|]; split; [reflexivity|]; split; repeat constructor; apply f_of_Z_exact; reflexivity). Qed.
Lemma demo_real z : (Z.abs z < 2 ^ 53)%Z -> real (f_of_Z z) = IZR z. Proof. apply f_of_Z_exact. Qed.
Lemma sqrt_demo x : 0 <= x -> sqrt (x * x + 0 * 0) = x. Proof. intros h. rewrite Rmult_0_l, Rplus_0_r. apply sqrt_square. exact h. Qed.
Lemma demo_sum : magnitudes 3 (ints [1; 2; 4]%Z) (ints [0; 0; 0]%Z) = 7 /\ magnitudes 4 (ints [1; 2; 3; 4]%Z) (ints [0; 0; 0; 0]%Z) = 10.
Proof. unfold magnitudes, ints. cbn [map nth rsumf]. rewrite !demo_real by reflexivity. rewrite !sqrt_demo by lra. lra. Qed.
Lemma demo_large x : x <= 1000 -> x <= IZR (2 ^ 900).
Proof. intros h. assert (IZR 1000 <= IZR (2 ^ 900)) by (apply IZR_le; intro; discriminate). lra. Qed.
Lemma demo_tiny k x : (10 <= k)%Z -> 0 <= x <= 30 -> x / IZR (2 ^ k) <= 30 * / 1024.
Proof.
  intros hk hx. unfold Rdiv. apply Rmult_le_compat; try lra; [apply Rlt_le, Rinv_0_lt_compat, IZR_lt; lia|]. apply Rinv_le_contravar; [lra|]. change 1024 with (IZR (2 ^ 10)). apply IZR_le. apply Z.pow_le_mono_r; lia.
Qed.
Definition memory (n : nat) : list f64 := repeat (f_of_Z 9) n.
Lemma memory_length n : length (memory n) = n. Proof. apply repeat_length. Qed.
(** a length that is no power of two and one that is, with a cosine and a sine of ten digits *)
Example c115_instance :
  (exists re im, sp_fft64 cos40 sin40 memory (fun _ => true) 3 (ints [1; 2; 4]%Z, ints [0; 0; 0]%Z) = Some (0%Z, (re, im)) /\ Rabs (real (nth 0 re fzero) - 7) <= / 10) /\
  (exists re im, sp_fft64 cos40 sin40 memory (fun _ => true) (2 ^ 2) (ints [1; 2; 3; 4]%Z, ints [0; 0; 0; 0]%Z) = Some (0%Z, (re, im)) /\ Rabs (real (nth 0 re fzero) - 10) <= / 10) /\
  (exists t re im, sp_fft64 cos40 sin40 memory (fun _ => true) 3 (ints [1; 2; 4]%Z, ints [0; 0; 0]%Z) = Some (0%Z, t) /\
    sp_ffti64 cos40 sin40 memory (fun _ => true) 3 t = Some (0%Z, (re, im)) /\ Rabs (real (nth 1 re fzero) - 6) <= / 2).
Proof.
  destruct demo_finite as [f3 f4]. destruct demo_sum as [s3 s4]. change 4%nat with (2 ^ 2)%nat in s4. assert (hd : 0 <= / 1000000 <= / 1000000) by lra. pose proof u_pos as hu. pose proof (u_bound 1000000000 ltac:(lia) ltac:(intro; discriminate)) as hus.
  assert (l12 : Nat.log2 (4 * 3) = 3%nat) by reflexivity. assert (l4 : Nat.log2 (2 ^ 2) = 2%nat) by reflexivity.
  assert (i2 : INR 2 = 2) by (cbn; lra). assert (i3 : INR 3 = 3) by (cbn; lra). assert (i4 : INR (2 ^ 2) = 4) by (cbn; lra).
  pose proof (demo_tiny 1000 (3 * 3 * 3) ltac:(lia) ltac:(lra)) as t3. pose proof (demo_tiny 1020 (4 * 4) ltac:(lia) ltac:(lra)) as t4.
  split; [|split].
  - destruct (c115_fft _ cos40 sin40 memory (fun _ => true) 3 _ _ memory_length libm40 hd ltac:(reflexivity) f3 ltac:(rewrite s3; apply demo_large; lra)) as (st & re & im & e & h & k). rewrite (k (fun _ => eq_refl)) in *.
    exists re, im. split; [exact e|]. destruct h as [(_ & _ & _ & h)|[h _]]; [|discriminate]. destruct (h 0%nat ltac:(lia)) as (_ & _ & h1 & _).
    replace (dft_re 3 (map real (ints [1; 2; 4]%Z)) (map real (ints [0; 0; 0]%Z)) 0) with 7 in h1.
    + eapply Rle_trans; [exact h1|]. rewrite s3. unfold error_any. rewrite l12, i3. lra.
    + unfold dft_re, ints. cbn [map nth rsumf INR]. rewrite !demo_real by reflexivity. rewrite !Rmult_0_r. unfold Rdiv. rewrite !Rmult_0_l, ?cos_0, ?sin_0. lra.
  - destruct (c115_fft_power_of_two _ cos40 sin40 memory (fun _ => true) 2 _ _ memory_length libm40 hd ltac:(lia) f4 ltac:(rewrite s4; apply demo_large; lra)) as (st & re & im & e & h & k). rewrite (k (fun _ => eq_refl)) in *.
    exists re, im. split; [exact e|]. destruct h as [(_ & _ & _ & h)|[h _]]; [|discriminate]. destruct (h 0%nat ltac:(cbn; lia)) as (_ & _ & h1 & _).
    replace (dft_re (2 ^ 2) (map real (ints [1; 2; 3; 4]%Z)) (map real (ints [0; 0; 0; 0]%Z)) 0) with 10 in h1.
    + eapply Rle_trans; [exact h1|]. rewrite s4. unfold error_power_of_two. rewrite l4, i2, i4. lra.
    + unfold dft_re, ints. cbn [Nat.pow Nat.mul Nat.add map nth rsumf INR]. rewrite !demo_real by reflexivity. rewrite !Rmult_0_r. unfold Rdiv. rewrite !Rmult_0_l, ?cos_0, ?sin_0. lra.
  - assert (e3 : error_any (/ 1000000) 3 7 <= 1 / 20) by (unfold error_any; rewrite l12, i3; lra).
    assert (e4 : forall s, 0 <= s <= 30 -> error_any (/ 1000000) 3 s <= 1 / 10) by (intros s hs; unfold error_any; rewrite l12, i3; assert (unit_roundoff * s <= / 1000000000 * 30) by (apply Rmult_le_compat; lra); lra).
    assert (e0 : 0 <= error_any (/ 1000000) 3 7) by (unfold error_any; rewrite l12, i3; assert (0 <= 3 * 3 * 3 / IZR (2 ^ 1000)) by (apply Rmult_le_pos; [lra|apply Rlt_le, Rinv_0_lt_compat, IZR_lt; reflexivity]); lra).
    destruct (c115_round_trip _ cos40 sin40 memory (fun _ => true) (fun _ => true) 3 _ _ memory_length libm40 hd ltac:(reflexivity) (fun _ => eq_refl) (fun _ => eq_refl) f3) as (t & re & im & h1 & h2 & _ & _ & h).
    + rewrite s3, i3. apply demo_large. lra.
    + rewrite s3. apply demo_large. lra.
    + exists t, re, im. split; [exact h1|]. split; [exact h2|]. destruct (h 1%nat ltac:(lia)) as (_ & _ & q & _). rewrite s3, i3 in q. cbn [ints map nth] in q. rewrite demo_real in q by reflexivity. replace (3 * 2) with 6 in q by lra.
      eapply Rle_trans; [exact q|]. pose proof (e4 (3 * (7 + error_any (/ 1000000) 3 7)) ltac:(lra)). lra.
Qed.
