(** Band kernels and the windowed sinc filters for streams with doubles: /repo/source/c-precompiled/sph-sp/filter.c:118-129, 166-304.
    - The operations round as in DblModel.v, kernels as in DkerModel.v; [None] is undefined behaviour.
    - [enc] are the eight bytes of a double in memory, [dec] reads eight bytes. Flags are bytes; every byte but zero is true.
    - Allocations succeed. *)
From Coq Require Import ZArith Bool.
From Flocq Require Import BinarySingleNaN.
From Verif Require Import Base ConvolveModel FilterModel DblModel DfftModel DkerModel SincModel.
Open Scope nat_scope.

Section Band64.
Variable fcos fsin : f64 -> f64.
Variable junk : nat -> list f64.
Notation lp_hp := (lp_hp_ir64 fcos fsin junk).
(** adding the shorter kernel to the longer one, filter.c:192-208 *)
Definition add_centered64 (out over : list f64) : option (list f64) :=
  let start := (length out - 1) / 2 - (length over - 1) / 2 in
  for_ start (length over + start) (fun i out => x <- aget over (i - start) ;; y <- aget out i ;; aset out i (fadd x y)) out.
(** sp_windowed_sinc_bp_br_ir, filter.c:166-233. sp_null_ir, filter.c:118-121, gives one zero, sp_passthrough_ir, filter.c:122-129, one one. New sample arrays are zero *)
Definition bp_br_ir64 (cutoff_l cutoff_h transition_l transition_h : f64) (is_reject : bool) : option (list f64) :=
  let low_outside := fle cutoff_l fzero in
  let high_outside := fle fhalf cutoff_h in
  if is_reject then
    if low_outside then
      if high_outside then Some [fzero] else lp_hp cutoff_h transition_h true
    else if high_outside then lp_hp cutoff_l transition_l false
    else
      lp <- lp_hp cutoff_l transition_l false ;;
      hp <- lp_hp cutoff_h transition_h true ;;
      if length hp <? length lp then add_centered64 lp hp else add_centered64 hp lp
  else
    if low_outside then
      if high_outside then Some [f_of_Z 1] else lp_hp cutoff_h transition_h false
    else if high_outside then lp_hp cutoff_l transition_l true
    else
      hp <- lp_hp cutoff_l transition_l true ;;
      lp <- lp_hp cutoff_h transition_h false ;;
      sp_convolve_one f64 fadd fmul lp (length lp) hp (length hp) (repeat fzero (length lp + length hp - 1)).

Variable enc : f64 -> list Z.
Variable dec : list Z -> f64.
Variable junkb : nat -> list Z.
(** sp_windowed_sinc_lp_hp_ir_f, filter.c:237-245 *)
Definition lp_hp_ir_f64 (arguments : list Z) : option (list f64) :=
  cutoff <- slice arguments 0 8 ;;
  transition <- slice arguments 8 8 ;;
  is_high_pass <- aget arguments 16 ;;
  lp_hp (dec cutoff) (dec transition) (negb (is_high_pass =? 0)%Z).
(** sp_windowed_sinc_bp_br_ir_f, filter.c:249-261 *)
Definition bp_br_ir_f64 (arguments : list Z) : option (list f64) :=
  cutoff_l <- slice arguments 0 8 ;;
  cutoff_h <- slice arguments 8 8 ;;
  transition_l <- slice arguments 16 8 ;;
  transition_h <- slice arguments 24 8 ;;
  is_reject <- aget arguments 32 ;;
  bp_br_ir64 (dec cutoff_l) (dec cutoff_h) (dec transition_l) (dec transition_h) (negb (is_reject =? 0)%Z).
(** the two kernel functions: 0 is sp_windowed_sinc_lp_hp_ir_f, 1 is sp_windowed_sinc_bp_br_ir_f *)
Definition sinc_ir_f64 (f : nat) (arguments : list Z) : option (list f64) := if f =? 0 then lp_hp_ir_f64 arguments else bp_br_ir_f64 arguments.
Notation filter := (convolution_filter f64 fzero fadd fmul sinc_ir_f64 (fun _ => true) junk junkb).
(** sp_windowed_sinc_lp_hp, filter.c:271-284 *)
Definition windowed_sinc_lp_hp64 (input : list f64) (cutoff transition : f64) (is_high_pass : Z) (out_state : option nat) (out : list f64) (h : heap f64)
  : option (result unit * list f64 * option nat * heap f64) :=
  a <- lp_hp_args f64 enc junkb cutoff transition is_high_pass ;;
  filter input 0 a 17 out_state out h.
(** sp_windowed_sinc_bp_br, filter.c:287-304 *)
Definition windowed_sinc_bp_br64 (input : list f64) (cutoff_l cutoff_h transition_l transition_h : f64) (is_reject : Z) (out_state : option nat) (out : list f64) (h : heap f64)
  : option (result unit * list f64 * option nat * heap f64) :=
  a <- bp_br_args f64 enc junkb cutoff_l cutoff_h transition_l transition_h is_reject ;;
  filter input 1 a 33 out_state out h.
(** a user's program: the same call for one input after the other, with one state variable. The output arrays have the size of the inputs *)
Fixpoint run_inputs (call : list f64 -> option nat -> list f64 -> heap f64 -> option (result unit * list f64 * option nat * heap f64))
  (inputs : list (list f64)) (out_state : option nat) (h : heap f64) : option (list (result unit * list f64) * option nat * heap f64) :=
  match inputs with
  | [] => Some ([], out_state, h)
  | input :: rest =>
    '(r, out, out_state, h) <- call input out_state (junk (length input)) h ;;
    '(outs, out_state, h) <- run_inputs call rest out_state h ;;
    Some ((r, out) :: outs, out_state, h)
  end.
End Band64.
