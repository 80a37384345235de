(** The windowed sinc filters for streams: how their settings are passed to the convolution filter as bytes, and read back.

    - [D] are the values of sp_sample_t for settings. [enc] are the eight bytes of a value in memory, [dec] reads eight bytes, [val] is the
      number. The theorems hold for every encoding in which reading gives back what was written.
    - Flags (sp_bool_t) are bytes; every byte but zero is true.
    - Kernels are those of KerModel.v on real numbers. An undefined kernel is treated like a failing kernel function.
    - Allocations succeed. *)
From Coq Require Import Reals.
From Verif Require Import Base ConvolveModel FilterModel KerModel.
Open Scope nat_scope.

Section Sinc.
Variable D : Type.
Variable val : D -> R.
Variable enc : D -> list Z.
Variable dec : list Z -> D.
Variable junk : nat -> list R.
Variable junkb : nat -> list Z.

(** the arguments array in sp_windowed_sinc_lp_hp, /repo/source/c-precompiled/sph-sp/filter.c:275-281 *)
Definition lp_hp_args (cutoff transition : D) (is_high_pass : Z) : option (list Z) :=
  a <- blit (enc cutoff) 0 (junkb 17) 0 8 ;;
  a <- blit (enc transition) 0 a 8 8 ;;
  aset a 16 is_high_pass.
(** the arguments array in sp_windowed_sinc_bp_br, filter.c:291-299 *)
Definition bp_br_args (cutoff_l cutoff_h transition_l transition_h : D) (is_reject : Z) : option (list Z) :=
  a <- blit (enc cutoff_l) 0 (junkb 33) 0 8 ;;
  a <- blit (enc cutoff_h) 0 a 8 8 ;;
  a <- blit (enc transition_l) 0 a 16 8 ;;
  a <- blit (enc transition_h) 0 a 24 8 ;;
  aset a 32 is_reject.
(** sp_windowed_sinc_lp_hp_ir_f, filter.c:237-245 *)
Definition lp_hp_ir_f (arguments : list Z) : option (list R) :=
  cutoff <- slice arguments 0 8 ;;
  transition <- slice arguments 8 8 ;;
  is_high_pass <- aget arguments 16 ;;
  lp_hp_ir junk (val (dec cutoff)) (val (dec transition)) (negb (is_high_pass =? 0)%Z).
(** sp_windowed_sinc_bp_br_ir_f, filter.c:249-261 *)
Definition bp_br_ir_f (arguments : list Z) : option (list R) :=
  cutoff_l <- slice arguments 0 8 ;;
  cutoff_h <- slice arguments 8 8 ;;
  transition_l <- slice arguments 16 8 ;;
  transition_h <- slice arguments 24 8 ;;
  is_reject <- aget arguments 32 ;;
  bp_br_ir junk (val (dec cutoff_l)) (val (dec cutoff_h)) (val (dec transition_l)) (val (dec transition_h)) (negb (is_reject =? 0)%Z).
(** the two kernel functions: 0 is sp_windowed_sinc_lp_hp_ir_f, 1 is sp_windowed_sinc_bp_br_ir_f *)
Definition sinc_ir_f (f : nat) (arguments : list Z) : option (list R) := if f =? 0 then lp_hp_ir_f arguments else bp_br_ir_f arguments.

Notation filter := (convolution_filter R 0%R Rplus Rmult sinc_ir_f (fun _ => true) junk junkb).
(** sp_windowed_sinc_lp_hp, filter.c:271-286 *)
Definition windowed_sinc_lp_hp (input : list R) (cutoff transition : D) (is_high_pass : Z) (out_state : option nat) (out : list R) (h : heap R)
  : option (result unit * list R * option nat * heap R) :=
  a <- lp_hp_args cutoff transition is_high_pass ;;
  filter input 0 a 17 out_state out h.
(** sp_windowed_sinc_bp_br, filter.c:289-304 *)
Definition windowed_sinc_bp_br (input : list R) (cutoff_l cutoff_h transition_l transition_h : D) (is_reject : Z) (out_state : option nat) (out : list R) (h : heap R)
  : option (result unit * list R * option nat * heap R) :=
  a <- bp_br_args cutoff_l cutoff_h transition_l transition_h is_reject ;;
  filter input 1 a 33 out_state out h.

(** a user's program: calls on one state variable that begins as null *)
Inductive request :=
  | LpHp (input : list R) (cutoff transition : D) (is_high_pass : Z)
  | BpBr (input : list R) (cutoff_l cutoff_h transition_l transition_h : D) (is_reject : Z).
Fixpoint run_requests (l : list request) (out_state : option nat) (h : heap R) : option (list (result unit * list R) * option nat * heap R) :=
  match l with
  | [] => Some ([], out_state, h)
  | q :: rest =>
    '(r, out, out_state, h) <-
      match q with
      | LpHp input c t b => windowed_sinc_lp_hp input c t b out_state (junk (length input)) h
      | BpBr input cl ch tl th b => windowed_sinc_bp_br input cl ch tl th b out_state (junk (length input)) h
      end ;;
    '(outs, out_state, h) <- run_requests rest out_state h ;;
    Some ((r, out) :: outs, out_state, h)
  end.
End Sinc.
Arguments LpHp {D} input cutoff transition is_high_pass.
Arguments BpBr {D} input cutoff_l cutoff_h transition_l transition_h is_reject.
