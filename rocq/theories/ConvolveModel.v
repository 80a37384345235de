(** Model of sp_convolve_one and sp_convolve.
    Samples are elements of an arbitrary type with arbitrary [add], [mul], [zero]: no algebraic law is assumed, so the
    results below hold bit for bit for IEEE doubles with the C evaluation order.
    Lengths and indices are [nat]; the C type is uint32, so the model is faithful for a_len + b_len <= 2^32. *)
From Verif Require Import Base.

Section Convolve.
Variable V : Type.
Variables (zero : V) (add mul : V -> V -> V).

(** out[c] += a[ai] * b[bi]  (main.c:259, 311, 314) *)
Definition accumulate (a b : list V) (ai bi c : nat) (out : list V) : option (list V) :=
  x <- aget a ai ;; y <- aget b bi ;; o <- aget out c ;; aset out c (add o (mul x y)).

(** sp_convolve_one, /repo/source/c-precompiled/sph-sp/main.c:254-265 *)
Definition sp_convolve_one (a : list V) (a_len : nat) (b : list V) (b_len : nat) (out : list V) : option (list V) :=
  for_ 0 a_len (fun a_index out =>
    for_ 0 b_len (fun b_index out => accumulate a b a_index b_index (a_index + b_index) out) out) out.

(** "prepare out and carryover", main.c:285-300 *)
Definition convolve_prepare (a_len carryover_len : nat) (carryover out : list V) : option (list V * list V) :=
  if 0 <? carryover_len then
    if carryover_len <=? a_len then
      out <- blit carryover 0 out 0 carryover_len ;;
      carryover <- fill carryover 0 carryover_len zero ;;
      out <- fill out carryover_len (a_len - carryover_len) zero ;;
      Some (out, carryover)
    else
      out <- blit carryover 0 out 0 a_len ;;
      carryover <- blit carryover a_len carryover 0 (carryover_len - a_len) ;;
      carryover <- fill carryover (carryover_len - a_len) a_len zero ;;
      Some (out, carryover)
  else
    out <- fill out 0 a_len zero ;; Some (out, carryover).

(** "process values with carryover", main.c:306-317 *)
Definition convolve_tail (a : list V) (a_len : nat) (b : list V) (b_len size : nat) (s : list V * list V)
  : option (list V * list V) :=
  for_ size a_len (fun a_index s =>
    for_ 0 b_len (fun b_index (s : list V * list V) =>
      let '(out, carryover) := s in
      let c_index := a_index + b_index in
      if c_index <? a_len then
        out <- accumulate a b a_index b_index c_index out ;; Some (out, carryover)
      else
        carryover <- accumulate a b a_index b_index (c_index - a_len) carryover ;; Some (out, carryover)) s) s.

(** sp_convolve, /repo/source/c-precompiled/sph-sp/main.c:280-318. Result: (out, carryover) *)
Definition sp_convolve (a : list V) (a_len : nat) (b : list V) (b_len carryover_len : nat) (carryover out : list V)
  : option (list V * list V) :=
  '(out, carryover) <- convolve_prepare a_len carryover_len carryover out ;;
  let size := if a_len <? b_len then 0 else a_len - (b_len - 1) in
  out <- (if 0 <? size then sp_convolve_one a size b b_len out else Some out) ;;
  convolve_tail a a_len b b_len size (out, carryover).

(** The caller's streaming loop: one call of sp_convolve per segment with the same impulse response, output buffers of
    the segment length with arbitrary content [junk], carryover length [b_len - 1] as documented at main.c:267-279. *)
Fixpoint convolve_stream (junk : nat -> list V) (b carryover : list V) (segments : list (list V))
  : option (list V * list V) :=
  match segments with
  | [] => Some ([], carryover)
  | a :: rest =>
    '(out, carryover) <- sp_convolve a (length a) b (length b) (length b - 1) carryover (junk (length a)) ;;
    '(outs, carryover) <- convolve_stream junk b carryover rest ;;
    Some (out ++ outs, carryover)
  end.

End Convolve.
