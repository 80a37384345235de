(** Properties C01, C02, C03 *)
From Verif Require Import Base ConvolveModel ConvolveSpec ConvolveProofs ConvolveFinal.

(** C01: the first call of sp_convolve on a whole signal, with a zeroed carryover of the documented size and any
    carryover length up to it, computes the linear convolution: the first [length a] samples in [out], the remaining
    [length b - 1] in the carryover. *)
Theorem c01_convolve_is_linear_convolution :
  forall (V : Type) (zero : V) (add mul : V -> V -> V) (a b out : list V) (carryover_len : nat),
  b <> [] -> length out = length a -> carryover_len <= length b - 1 ->
  sp_convolve V zero add mul a (length a) b (length b) carryover_len (repeat zero (length b - 1)) out =
  Some (conv_samples V zero add mul a b 0 (length a), conv_samples V zero add mul a b (length a) (length b - 1)).
Proof. exact convolve_first_call. Qed.
Print Assumptions c01_convolve_is_linear_convolution.

(** non-trivial instance over the integers: [1,2,3] * [1,10,100] *)
Example c01_instance :
  sp_convolve Z 0%Z Z.add Z.mul [1;2;3]%Z 3 [1;10;100]%Z 3 0 [0;0]%Z [7;7;7]%Z = Some ([1;12;123]%Z, [230;300]%Z).
Proof. reflexivity. Qed.

(** C01: sp_convolve_one on a zeroed output of sufficient length computes the whole convolution and leaves the rest zero. *)
Theorem c01_convolve_one_is_linear_convolution :
  forall (V : Type) (zero : V) (add mul : V -> V -> V) (a b : list V) (n : nat),
  length a + length b - 1 <= n ->
  sp_convolve_one V add mul a (length a) b (length b) (repeat zero n) = Some (conv_samples V zero add mul a b 0 n).
Proof. exact convolve_one_whole. Qed.
Print Assumptions c01_convolve_one_is_linear_convolution.

(** C02: for every division of a signal into segments (empty ones and ones shorter than the impulse response included),
    processing the segments one after the other produces exactly the samples, and ends in exactly the carryover, of one
    call on the whole signal.  No law of arithmetic is used: equality is bit for bit. *)
Theorem c02_convolve_segmentation_invariant :
  forall (V : Type) (zero : V) (add mul : V -> V -> V) (junk : nat -> list V) (b : list V) (segments : list (list V)),
  b <> [] -> (forall n, length (junk n) = n) ->
  convolve_stream V zero add mul junk b (repeat zero (length b - 1)) segments =
  sp_convolve V zero add mul (concat segments) (length (concat segments)) b (length b) (length b - 1)
    (repeat zero (length b - 1)) (junk (length (concat segments))).
Proof. exact convolve_segmentation. Qed.
Print Assumptions c02_convolve_segmentation_invariant.

Example c02_instance :
  convolve_stream Z 0%Z Z.add Z.mul (repeat 9%Z) [1;10;100]%Z [0;0]%Z [[1]; []; [2;3]]%Z = Some ([1;12;123]%Z, [230;300]%Z).
Proof. reflexivity. Qed.

(** C02: and the stream computes the linear convolution of the whole signal. *)
Theorem c02_stream_is_linear_convolution :
  forall (V : Type) (zero : V) (add mul : V -> V -> V) (junk : nat -> list V) (b : list V) (segments : list (list V)),
  b <> [] -> (forall n, length (junk n) = n) ->
  convolve_stream V zero add mul junk b (repeat zero (length b - 1)) segments =
  Some (conv_samples V zero add mul (concat segments) b 0 (length (concat segments)),
        conv_samples V zero add mul (concat segments) b (length (concat segments)) (length b - 1)).
Proof. exact convolve_stream_whole. Qed.
Print Assumptions c02_stream_is_linear_convolution.

(** C03: with buffers of the documented sizes no access is out of bounds, whatever their contents, and the buffers keep
    their sizes.  Carryover cells beyond both the previous and the current tail are not changed. *)
Theorem c03_convolve_memory_safe :
  forall (V : Type) (zero : V) (add mul : V -> V -> V) (a b carryover out : list V) (a_len b_len carryover_len : nat),
  a_len <= length a -> 0 < b_len -> b_len <= length b -> length out = a_len ->
  carryover_len <= length carryover -> b_len - 1 <= length carryover ->
  exists out' carryover',
    sp_convolve V zero add mul a a_len b b_len carryover_len carryover out = Some (out', carryover') /\
    length out' = length out /\ length carryover' = length carryover /\
    forall j, carryover_len <= j -> b_len - 1 <= j -> nth_error carryover' j = nth_error carryover j.
Proof. exact convolve_safe. Qed.
Print Assumptions c03_convolve_memory_safe.

Example c03_instance :
  sp_convolve Z 0%Z Z.add Z.mul [1;2;3]%Z 2 [1;10;100]%Z 2 1 [5;6;7]%Z [8;8]%Z = Some ([6;12]%Z, [20;6;7]%Z).
Proof. reflexivity. Qed.

(** C03: the size requirements are necessary: a shorter output, a carryover shorter than its stated length or shorter
    than the tail of a non-empty segment is an out of bounds access. *)
Theorem c03_convolve_sizes_necessary :
  forall (V : Type) (zero : V) (add mul : V -> V -> V) (a b carryover out : list V) (a_len b_len carryover_len : nat),
  a_len <= length a -> 0 < b_len -> b_len <= length b ->
  length out < a_len \/ length carryover < carryover_len \/ (0 < a_len /\ length out = a_len /\ length carryover < b_len - 1) ->
  sp_convolve V zero add mul a a_len b b_len carryover_len carryover out = None.
Proof. exact convolve_unsafe. Qed.
Print Assumptions c03_convolve_sizes_necessary.

Example c03_necessary_instance :
  sp_convolve Z 0%Z Z.add Z.mul [1;2]%Z 2 [1;10;100]%Z 3 0 [0]%Z [0;0]%Z = None.
Proof. reflexivity. Qed.
