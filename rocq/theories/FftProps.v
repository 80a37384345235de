(** Properties C48, C49 and C50 *)
From Coq Require Import Reals Lra.
From Verif Require Import Base KerSpec FftModel FftSpec FftUseProofs.
Open Scope R_scope.

Definition demo_memory (n : nat) : list R := repeat 7 n.
Lemma demo_memory_length n : length (demo_memory n) = n. Proof. apply repeat_length. Qed.

(** C48: for every length, including 0 and lengths that are no powers of two, for every input and for every outcome of the allocations, sp_fft
    returns. With status 0 the arrays hold the discrete Fourier transform of the input. Otherwise the status is 1 and the arrays are unchanged.
    If no allocation fails then the status is 0. [junk]: contents of uninitialised memory. *)
Theorem c48_fft :
  forall (junk : nat -> list R) (ok : list nat -> bool) (n : nat) (re im : list R), (forall k, length (junk k) = k) -> signal re im n ->
  exists st re' im', sp_fft junk ok n (re, im) = Some (st, (re', im')) /\
    (st = 0%Z /\ is_dft n re im re' im' \/ st = 1%Z /\ re' = re /\ im' = im) /\ ((forall p, ok p = true) -> st = 0%Z).
Proof. intros junk ok n re im h. exact (fft_ok junk h ok n re im). Qed.
Print Assumptions c48_fft.

Example c48_instance :
  (* a power of two and other lengths *)
  (exists re im, sp_fft demo_memory (fun _ => true) 4 ([1; 2; 3; 4], [0; 0; 0; 0]) = Some (0%Z, (re, im)) /\ nth 0 re 0 = 10) /\
  (exists re im, sp_fft demo_memory (fun _ => true) 3 ([1; 2; 4], [0; 1; 0]) = Some (0%Z, (re, im)) /\ nth 0 re 0 = 7 /\ nth 0 im 0 = 1) /\
  (exists st re im, sp_fft demo_memory (fun p => match p with [] => true | _ => false end) 3 ([1; 2; 4], [0; 1; 0]) = Some (st, (re, im))).
Proof.
  split; [|split].
  - destruct (c48_fft demo_memory (fun _ => true) 4 [1; 2; 3; 4] [0; 0; 0; 0] demo_memory_length (conj eq_refl eq_refl)) as (st & re & im & e & h & k).
    rewrite (k (fun _ => eq_refl)) in *. exists re, im. split; [exact e|]. destruct h as [[_ [_ h]]|[h _]]; [|discriminate]. destruct (h 0%nat ltac:(lia)) as [-> _]. unfold dft_re. cbn [rsumf nth INR].
    rewrite !Rmult_0_r. unfold Rdiv. rewrite !Rmult_0_l, ?cos_0, ?sin_0, ?cos_0. lra.
  - destruct (c48_fft demo_memory (fun _ => true) 3 [1; 2; 4] [0; 1; 0] demo_memory_length (conj eq_refl eq_refl)) as (st & re & im & e & h & k).
    rewrite (k (fun _ => eq_refl)) in *. exists re, im. split; [exact e|]. destruct h as [[_ [_ h]]|[h _]]; [|discriminate]. destruct (h 0%nat ltac:(lia)) as [-> ->]. unfold dft_re, dft_im. cbn [rsumf nth INR].
    rewrite !Rmult_0_r. unfold Rdiv. rewrite !Rmult_0_l, ?cos_0, ?sin_0, ?cos_0. split; lra.
  - destruct (c48_fft demo_memory (fun p => match p with [] => true | _ => false end) 3 [1; 2; 4] [0; 1; 0] demo_memory_length (conj eq_refl eq_refl)) as (st & re & im & e & _). eauto.
Qed.

(** C49: likewise, sp_ffti computes the inverse transform without scaling. *)
Theorem c49_inverse :
  forall (junk : nat -> list R) (ok : list nat -> bool) (n : nat) (re im : list R), (forall k, length (junk k) = k) -> signal re im n ->
  exists st re' im', sp_ffti junk ok n (re, im) = Some (st, (re', im')) /\
    (st = 0%Z /\ is_idft n re im re' im' \/ st = 1%Z /\ re' = re /\ im' = im) /\ ((forall p, ok p = true) -> st = 0%Z).
Proof. intros junk ok n re im h. exact (ffti_ok junk h ok n re im). Qed.
Print Assumptions c49_inverse.

(** C49: sp_ffti after sp_fft gives the input times the length. *)
Theorem c49_round_trip :
  forall (junk : nat -> list R) (ok1 ok2 : list nat -> bool) (n : nat) (re im : list R), (forall k, length (junk k) = k) ->
  (forall p, ok1 p = true) -> (forall p, ok2 p = true) -> signal re im n ->
  exists s, sp_fft junk ok1 n (re, im) = Some (0%Z, s) /\ sp_ffti junk ok2 n s = Some (0%Z, (map (fun v => INR n * v) re, map (fun v => INR n * v) im)).
Proof. intros junk ok1 ok2 n re im h. exact (round_trip junk h ok1 ok2 n re im). Qed.
Print Assumptions c49_round_trip.

(** C49: convolution by transforms is circular convolution, for complex and for real signals of every length. When an allocation fails, the result
    is false and the output is unchanged. *)
Theorem c49_convolution :
  forall (junk : nat -> list R) (ok : list nat -> bool) (n : nat) (xr xi yr yi outr outi : list R), (forall k, length (junk k) = k) ->
  signal xr xi n -> signal yr yi n -> signal outr outi n ->
  exists st outr' outi', convolve_complex (transform junk 1) ok (xr, xi) (yr, yi) (outr, outi) n = Some (st, (outr', outi')) /\
    (st = true /\ signal outr' outi' n /\ (forall k, (k < n)%nat -> nth k outr' 0 = circular_re n xr xi yr yi k /\ nth k outi' 0 = circular_im n xr xi yr yi k) \/
     st = false /\ outr' = outr /\ outi' = outi) /\ ((forall p, ok p = true) -> st = true).
Proof. intros junk ok n xr xi yr yi outr outi h. exact (convolve_complex_ok junk h ok n xr xi yr yi outr outi). Qed.
Print Assumptions c49_convolution.
Theorem c49_real_convolution :
  forall (junk : nat -> list R) (ok : list nat -> bool) (n : nat) (x y out : list R), (forall k, length (junk k) = k) ->
  length x = n -> length y = n -> length out = n ->
  exists st out', convolve_real junk 1 ok x y out n = Some (st, out') /\
    (st = true /\ length out' = n /\ (forall k, (k < n)%nat -> nth k out' 0 = rsumf n (fun j => nth j x 0 * nth ((k + n - j) mod n) y 0)) \/ st = false /\ out' = out) /\
    ((forall p, ok p = true) -> st = true).
Proof. intros junk ok n x y out h. exact (convolve_real_ok junk h ok n x y out). Qed.
Print Assumptions c49_real_convolution.

Example c49_instance :
  (exists s, sp_fft demo_memory (fun _ => true) 3 ([1; 2; 4], [0; 1; 0]) = Some (0%Z, s) /\
    sp_ffti demo_memory (fun _ => true) 3 s = Some (0%Z, (map (fun v => INR 3 * v) [1; 2; 4], map (fun v => INR 3 * v) [0; 1; 0]))) /\
  (exists out, convolve_real demo_memory 1 (fun _ => true) [1; 2; 3] [0; 1; 0] [9; 9; 9] 3 = Some (true, out) /\ nth 0 out 0 = 3 /\ nth 1 out 0 = 1 /\ nth 2 out 0 = 2).
Proof.
  split; [exact (c49_round_trip demo_memory (fun _ => true) (fun _ => true) 3 [1; 2; 4] [0; 1; 0] demo_memory_length (fun _ => eq_refl) (fun _ => eq_refl) (conj eq_refl eq_refl))|].
  destruct (c49_real_convolution demo_memory (fun _ => true) 3 [1; 2; 3] [0; 1; 0] [9; 9; 9] demo_memory_length eq_refl eq_refl eq_refl) as (st & out & e & h & k). rewrite (k (fun _ => eq_refl)) in *.
  exists out. split; [exact e|]. destruct h as [(_ & _ & h)|[h _]]; [|discriminate]. clear k. rewrite !h by lia. cbn [rsumf nth Nat.modulo Nat.divmod Nat.add Nat.sub fst snd]. repeat split; lra.
Qed.

(** C50: bit i of the result is bit n - 1 - i of the argument; bits from n on are cleared. *)
Theorem c50_reverse_bits :
  forall n x i, Nat.testbit (reverse_bits x n) i = if (i <? n)%nat then Nat.testbit x (n - 1 - i) else false.
Proof. exact FftBits.reverse_testbit. Qed.
Print Assumptions c50_reverse_bits.
Theorem c50_involution :
  forall x n, (x < 2 ^ n)%nat -> (reverse_bits x n < 2 ^ n)%nat /\ reverse_bits (reverse_bits x n) n = x.
Proof. exact reverse_involution. Qed.
Print Assumptions c50_involution.
(** C50: the swap loop moves the element at the reversed index to each index. *)
Theorem c50_permutation :
  forall (L : nat) (re im : list R), signal re im (2 ^ L) ->
  exists re' im', permute (2 ^ L) L (re, im) = Some (re', im') /\ signal re' im' (2 ^ L) /\
    forall i, (i < 2 ^ L)%nat -> nth i re' 0 = nth (reverse_bits i L) re 0 /\ nth i im' 0 = nth (reverse_bits i L) im 0.
Proof. exact permute_bits. Qed.
Print Assumptions c50_permutation.

Example c50_instance :
  reverse_bits 6 3 = 3%nat /\ reverse_bits 1 5 = 16%nat /\ Nat.testbit (reverse_bits 6 3) 0 = true /\
  (exists re' im', permute 8 3 ([0; 1; 2; 3; 4; 5; 6; 7], [7; 6; 5; 4; 3; 2; 1; 0]) = Some (re', im') /\ nth 1 re' 0 = 4 /\ nth 6 im' 0 = 4).
Proof.
  split; [reflexivity|]. split; [reflexivity|]. split; [reflexivity|].
  destruct (c50_permutation 3 [0; 1; 2; 3; 4; 5; 6; 7] [7; 6; 5; 4; 3; 2; 1; 0] (conj eq_refl eq_refl)) as (re' & im' & e & _ & h). exists re', im'. split; [exact e|].
  split; [apply (h 1%nat); cbn; lia|apply (h 6%nat); cbn; lia].
Qed.
