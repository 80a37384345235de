(** Model of the convolution filter state: sp_convolution_filter_state_set, sp_convolution_filter and
    sp_convolution_filter_state_free, with explicit heap objects, allocation failure and failing impulse response functions.

    The heap is a list of cells: address = index, a freed cell is [None], addresses are never reused.  Reading, writing
    or freeing a dead cell is undefined behaviour ([None] of the outer option).  [realloc] always moves, which is the
    behaviour the C standard permits and the least favourable one for stale pointers.
    - [mem_ok n] says whether the n-th allocation attempt succeeds.
    - [junk n] is the unspecified content of [n] freshly allocated samples, [junkb] the same for bytes.
    - [ir_f f args] is the impulse response computed by the function with identity [f] on the argument bytes,
      [None] for a failure status.  It is the caller's function; it allocates the response it returns. *)
From Verif Require Import Base ConvolveModel.

Section Filter.
Variable V : Type.
Variables (zero : V) (add mul : V -> V -> V).
Variable ir_f : nat -> list Z -> option (list V).
Variable mem_ok : nat -> bool.
Variable junk : nat -> list V.
Variable junkb : nat -> list Z.

(** sp_convolution_filter_state_t, /repo/source/c-precompiled/sph-sp/filter.h:5-14 *)
Record fstate := {
  st_carryover : option nat;
  st_carryover_len : nat;
  st_carryover_alloc_len : nat;
  st_ir : option nat;
  st_ir_f : nat;
  st_args : nat;
  st_args_len : nat;
  st_ir_len : nat
}.

Inductive obj := OSamples (l : list V) | OBytes (l : list Z) | OState (s : fstate).
Record heap := { cells : list (option obj); attempts : nat }.

Definition set_cell (h : heap) (p : nat) (o : option obj) : option heap :=
  c <- aset (cells h) p o ;; Some {| cells := c; attempts := attempts h |}.
Definition load (h : heap) (p : nat) : option obj := match nth_error (cells h) p with Some (Some o) => Some o | _ => None end.
Definition store (h : heap) (p : nat) (o : obj) : option heap := _ <- load h p ;; set_cell h p (Some o).
(** free(p): NULL is ignored, a dead or unknown address is undefined behaviour *)
Definition free (h : heap) (p : option nat) : option heap :=
  match p with None => Some h | Some a => _ <- load h a ;; set_cell h a None end.
(** sph_helper_malloc and friends, /repo/source/c/foreign/sph-sc-lib/sph-sp/helper.c:23-69. [None]: memory status *)
Definition malloc (h : heap) (o : obj) : option nat * heap :=
  if mem_ok (attempts h) then
    (Some (length (cells h)), {| cells := cells h ++ [Some o]; attempts := S (attempts h) |})
  else (None, {| cells := cells h; attempts := S (attempts h) |}).

Definition load_samples (h : heap) (p : nat) : option (list V) := o <- load h p ;; match o with OSamples l => Some l | _ => None end.
Definition load_bytes (h : heap) (p : nat) : option (list Z) := o <- load h p ;; match o with OBytes l => Some l | _ => None end.
Definition load_state (h : heap) (p : nat) : option fstate := o <- load h p ;; match o with OState s => Some s | _ => None end.

(** the result of an operation with a status: [Fail] is a failure status *)
Inductive result (A : Type) := Ok (a : A) | Fail.
Arguments Ok {A} a.
Arguments Fail {A}.

(** memcmp(a, b, n) == 0 *)
Definition bytes_equal (a b : list Z) (n : nat) : option bool :=
  x <- slice a 0 n ;; y <- slice b 0 n ;; Some (if list_eq_dec Z.eq_dec x y then true else false).

(** filter.c:59-77: the carryover array for a new impulse response of length [ir_len]. The result is the new value of the
    local variable [carryover] and of state->carryover_alloc_len. *)
Definition extend_carryover (s : fstate) (ir_len : nat) (h : heap) : option (result (option nat * nat) * heap) :=
  let alloc_len := ir_len - 1 in
  match st_carryover s with
  | Some c =>
    if st_ir_len s <? ir_len then
      if st_carryover_alloc_len s <? alloc_len then
        old <- load_samples h c ;;
        match malloc h (OSamples (firstn alloc_len old ++ junk (alloc_len - length old))) with
        | (None, h) => Some (Fail, h)
        | (Some c', h) =>
          h <- free h (Some c) ;;
          l <- load_samples h c' ;;
          l <- fill l (st_ir_len s - 1) (ir_len - st_ir_len s) zero ;;
          h <- store h c' (OSamples l) ;;
          Some (Ok (Some c', alloc_len), h)
        end
      else
        l <- load_samples h c ;;
        l <- fill l (st_ir_len s - 1) (ir_len - st_ir_len s) zero ;;
        h <- store h c (OSamples l) ;;
        Some (Ok (Some c, st_carryover_alloc_len s), h)
    else Some (Ok (Some c, st_carryover_alloc_len s), h)
  | None =>
    if 0 <? alloc_len then
      match malloc h (OSamples (repeat zero alloc_len)) with
      | (None, h) => Some (Fail, h)
      | (Some c, h) => Some (Ok (Some c, alloc_len), h)
      end
    else Some (Ok (None, alloc_len), h)
  end.

(** filter.c:83-87 with status failure: memreg_free releases the objects registered at filter.c:45-46 *)
Fixpoint free_all (h : heap) (l : list nat) : option heap :=
  match l with [] => Some h | p :: l => h <- free h (Some p) ;; free_all h l end.

(** filter.c:52-88, common to a new and an existing state. [reg] is the content of the memreg, last added first. *)
Definition state_update (f : nat) (args : list Z) (args_len : nat) (sp : nat) (reg : list nat) (out_state : option nat)
  (h : heap) : option (result unit * option nat * heap) :=
  s <- load_state h sp ;;
  buf <- load_bytes h (st_args s) ;;
  buf <- blit args 0 buf 0 args_len ;;
  h <- store h (st_args s) (OBytes buf) ;;
  match ir_f f args with
  | None => h <- free_all h reg ;; Some (Fail, out_state, h)
  | Some ir =>
    let '(p, h) := malloc h (OSamples ir) in
    match p with
    | None => h <- free_all h reg ;; Some (Fail, out_state, h)
    | Some ir_p =>
      '(r, h) <- extend_carryover s (length ir) h ;;
      match r with
      | Fail => h <- free_all h reg ;; Some (Fail, out_state, h)
      | Ok (c, alloc_len) =>
        h <- store h sp (OState {| st_carryover := c; st_carryover_len := length ir - 1;
               st_carryover_alloc_len := alloc_len; st_ir := Some ir_p; st_ir_f := st_ir_f s;
               st_args := st_args s; st_args_len := st_args_len s; st_ir_len := length ir |}) ;;
        Some (Ok tt, Some sp, h)
      end
    end
  end.

(** sp_convolution_filter_state_set, /repo/source/c-precompiled/sph-sp/filter.c:17-88.
    Uninitialised members of a new state (carryover_len, ir, ir_len) are written as 0/NULL; they are not read before
    being assigned at filter.c:78-81. *)
Definition state_set (f : nat) (args : list Z) (args_len : nat) (out_state : option nat) (h : heap)
  : option (result unit * option nat * heap) :=
  match out_state with
  | Some sp =>
    s <- load_state h sp ;;
    buf <- load_bytes h (st_args s) ;;
    same <- (if (st_ir_f s =? f) && (args_len =? st_args_len s) then bytes_equal buf args args_len else Some false) ;;
    if (same : bool) then Some (Ok tt, out_state, h)
    else
      '(r, h) <- (if st_args_len s <? args_len then
        match malloc h (OBytes (firstn args_len buf ++ junkb (args_len - length buf))) with
        | (None, h) => Some (Fail, h)
        | (Some p, h) =>
          h <- free h (Some (st_args s)) ;;
          h <- store h sp (OState {| st_carryover := st_carryover s; st_carryover_len := st_carryover_len s;
                 st_carryover_alloc_len := st_carryover_alloc_len s; st_ir := st_ir s; st_ir_f := st_ir_f s;
                 st_args := p; st_args_len := st_args_len s; st_ir_len := st_ir_len s |}) ;;
          Some (Ok tt, h)
        end
        else Some (Ok tt, h)) ;;
      match r with
      | Fail => Some (Fail, out_state, h)
      | Ok _ =>
        h <- free h (st_ir s) ;;
        state_update f args args_len sp [] out_state h
      end
  | None =>
    let '(p, h) := malloc h (OState {| st_carryover := None; st_carryover_len := 0; st_carryover_alloc_len := 0;
       st_ir := None; st_ir_f := f; st_args := 0; st_args_len := args_len; st_ir_len := 0 |}) in
    match p with
    | None => Some (Fail, out_state, h)
    | Some sp =>
      let '(q, h) := malloc h (OBytes (junkb args_len)) in
      match q with
      | None => Some (Fail, out_state, h)
      | Some ap =>
        h <- store h sp (OState {| st_carryover := None; st_carryover_len := 0; st_carryover_alloc_len := 0;
               st_ir := None; st_ir_f := f; st_args := ap; st_args_len := args_len; st_ir_len := 0 |}) ;;
        state_update f args args_len sp [ap; sp] out_state h
      end
    end
  end.

(** sp_convolution_filter, /repo/source/c-precompiled/sph-sp/filter.c:96-105. [input] and [out] are the caller's
    arrays; the result carries the status, the output samples, *out_state and the heap *)
Definition convolution_filter (input : list V) (f : nat) (args : list Z) (args_len : nat) (out_state : option nat)
  (out : list V) (h : heap) : option (result unit * list V * option nat * heap) :=
  carryover_len <- (match out_state with Some sp => s <- load_state h sp ;; Some (st_carryover_len s) | None => Some 0 end) ;;
  '(r, out_state, h) <- state_set f args args_len out_state h ;;
  match r with
  | Fail => Some (Fail, out, out_state, h)
  | Ok _ =>
    sp <- out_state ;;
    s <- load_state h sp ;;
    irp <- st_ir s ;;
    ir <- load_samples h irp ;;
    carry <- (match st_carryover s with Some c => load_samples h c | None => Some [] end) ;;
    '(out, carry) <- sp_convolve V zero add mul input (length input) ir (st_ir_len s) carryover_len carry out ;;
    h <- (match st_carryover s with Some c => store h c (OSamples carry) | None => Some h end) ;;
    Some (Ok tt, out, out_state, h)
  end.

(** sp_convolution_filter_state_free, /repo/source/c-precompiled/sph-sp/filter.c:1-9 *)
Definition state_free (out_state : option nat) (h : heap) : option heap :=
  match out_state with
  | None => Some h
  | Some sp =>
    s <- load_state h sp ;;
    h <- free h (st_ir s) ;;
    h <- free h (st_carryover s) ;;
    h <- free h (Some (st_args s)) ;;
    free h (Some sp)
  end.

(** A filter user's program: a sequence of calls on one state variable, starting with *out_state = 0.  The result lists
    the status and output of each call. *)
Record call := { c_in : list V; c_f : nat; c_args : list Z }.
Fixpoint run_calls (calls : list call) (out_state : option nat) (h : heap)
  : option (list (result unit * list V) * option nat * heap) :=
  match calls with
  | [] => Some ([], out_state, h)
  | c :: rest =>
    '(r, out, out_state, h) <-
      convolution_filter (c_in c) (c_f c) (c_args c) (length (c_args c)) out_state (junk (length (c_in c))) h ;;
    '(outs, out_state, h) <- run_calls rest out_state h ;;
    Some ((r, out) :: outs, out_state, h)
  end.
End Filter.
Arguments Ok {A} a.
Arguments Fail {A}.
