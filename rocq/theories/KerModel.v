(** Filter kernels: /repo/source/c-precompiled/sph-sp/filter.c:106-233 and main.c:218, 232-249. Samples are real numbers, rounding is left out.
    What would be infinite or not a number is [None], as is undefined behaviour. Allocations succeed. *)
From Coq Require Import Reals.
From Verif Require Import Base ConvolveModel.
Open Scope R_scope.

(** sp_sinc, main.c:218 *)
Definition sinc (a : R) : R := if Req_EM_T 0 a then 1 else sin (PI * a) / (PI * a).
(** sp_window_blackman, filter.c:106. Width 1 divides by zero, see [lp_hp_ir] *)
Definition window_blackman (a : R) (width : nat) : R :=
  42 / 100 - 5 / 10 * cos (2 * PI * a / (INR width - 1)) + 8 / 100 * cos (4 * PI * a / (INR width - 1)).
Definition ceil (x : R) : Z := (- Int_part (- x))%Z.
(** sp_windowed_sinc_lp_hp_ir_length, filter.c:110-117. The conversion to a 32 bit number is undefined outside of its range *)
Definition ir_length (transition : R) : option nat :=
  if Req_EM_T transition 0 then None
  else
    let a := ceil (4 / transition) in
    _ <- need ((0 <=? a)%Z && (a <? two32)%Z) ;;
    Some (Z.to_nat (if (a mod 2 =? 0)%Z then u32 (a + 1) else a)).
(** sph_f64_sum, /repo/source/c/foreign/sph-sc-lib/sph-sp/float.h:6-21 *)
Definition rsum (l : list R) (count : nat) : option R :=
  last <- aget l (count - 1) ;;
  _ <- need (0 <? count)%nat ;;
  '(result, correction) <- for_ 0 (count - 1) (fun k '(result, correction) =>
    element <- aget l (count - 2 - k) ;;
    let temp := result + element in
    Some (temp, correction + (if Rle_dec element result then (result - temp) + element else (element - temp) + result))) (last, 0) ;;
  Some (correction + result).
(** sp_spectral_inversion_ir, main.c:232-239 *)
Definition spectral_inversion (a : list R) (len : nat) : option (list R) :=
  a <- for_ 0 len (fun i a => x <- aget a i ;; aset a i (x * -1)) a ;;
  let center := Z.to_nat (u32 (Z.of_nat len - 1) / 2) in
  x <- aget a center ;; aset a center (x + 1).
(** sp_spectral_reversal_ir, main.c:244-249: the loop runs len / 2 times; len, an unsigned number, is decremented by two only when it is
    greater than one *)
Definition spectral_reversal (a : list R) (len : nat) : option (list R) :=
  for_ 0 (len / 2) (fun k a => let i := (len - 2 * (k + 1))%nat in x <- aget a i ;; aset a i (x * -1)) a.
(** sp_windowed_sinc_lp_hp_ir, filter.c:135-162. [junk n]: what is in new memory *)
Definition lp_hp_ir (junk : nat -> list R) (cutoff transition : R) (is_high_pass : bool) : option (list R) :=
  len <- ir_length transition ;;
  let center_index := (INR len - 1) / 2 in
  _ <- need (negb (len =? 1)%nat) ;;
  ir <- for_ 0 len (fun i ir => aset ir i (window_blackman (INR i) len * sinc (2 * cutoff * (INR i - center_index)))) (junk len) ;;
  sum <- rsum ir len ;;
  if Req_EM_T sum 0 then None
  else
    ir <- for_ 0 len (fun i ir => x <- aget ir i ;; aset ir i (x / sum)) ir ;;
    if is_high_pass then spectral_inversion ir len else Some ir.
(** sp_null_ir, filter.c:118-121, the memory is zero *)
Definition null_ir : list R := [0].
(** sp_passthrough_ir, filter.c:122-129 *)
Definition passthrough_ir : list R := [1].
(** adding the shorter kernel to the longer one, filter.c:196-205, 186-195 *)
Definition add_centered (out over : list R) : option (list R) :=
  let start := ((length out - 1) / 2 - (length over - 1) / 2)%nat in
  for_ start (length over + start) (fun i out => x <- aget over (i - start) ;; y <- aget out i ;; aset out i (x + y)) out.
(** sp_windowed_sinc_bp_br_ir, filter.c:166-233 *)
Definition bp_br_ir (junk : nat -> list R) (cutoff_l cutoff_h transition_l transition_h : R) (is_reject : bool) : option (list R) :=
  let low_outside := if Rle_dec cutoff_l 0 then true else false in
  let high_outside := if Rle_dec (1 / 2) cutoff_h then true else false in
  if is_reject then
    if low_outside then
      if high_outside then Some null_ir else lp_hp_ir junk cutoff_h transition_h true
    else if high_outside then lp_hp_ir junk cutoff_l transition_l false
    else
      lp <- lp_hp_ir junk cutoff_l transition_l false ;;
      hp <- lp_hp_ir junk cutoff_h transition_h true ;;
      if (length hp <? length lp)%nat then add_centered lp hp else add_centered hp lp
  else
    if low_outside then
      if high_outside then Some passthrough_ir else lp_hp_ir junk cutoff_h transition_h false
    else if high_outside then lp_hp_ir junk cutoff_l transition_l true
    else
      hp <- lp_hp_ir junk cutoff_l transition_l true ;;
      lp <- lp_hp_ir junk cutoff_h transition_h false ;;
      sp_convolve_one R Rplus Rmult lp (length lp) hp (length hp) (repeat 0 (length lp + length hp - 1)).
