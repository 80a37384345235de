(** Vocabulary for statements about filter runs *)
From Verif Require Import Base ConvolveSpec FilterModel.

Section Spec.
Variable V : Type.
Variable ir_f : nat -> list Z -> option (list V).

(** every impulse response function call of the run succeeds with a non-empty response *)
Definition responds (c : call V) : Prop := exists ir, ir_f (c_f V c) (c_args V c) = Some ir /\ 0 < length ir.

(** the segment of a call: its input and the response its own function and arguments denote *)
Definition segment (c : call V) : list V * list V :=
  (c_in V c, match ir_f (c_f V c) (c_args V c) with Some ir => ir | None => [] end).

(** no tail is longer than what the next segment and its response can hold *)
Fixpoint tails_fit (prev : nat) (segs : list (list V * list V)) : Prop :=
  match segs with
  | [] => True
  | (a, b) :: rest => prev <= length a + length b /\ tails_fit (length b) rest
  end.

(** The samples of one call: the tail that earlier calls have left, to which the convolution of the segment [a] with the response [b] is added *)
Definition segment_sum (zero : V) (add mul : V -> V -> V) (tail a b : list V) (k : nat) : V := conv_sample V add mul (nth k tail zero) a b k.
(** A filter that keeps as many samples as its current response is long, minus one: each call returns the first samples, as many as its segment has,
    keeps the next [length b - 1] samples as the tail, and drops what lies beyond. *)
Fixpoint filter_stream (zero : V) (add mul : V -> V -> V) (tail : list V) (segments : list (list V * list V)) : list V :=
  match segments with
  | [] => []
  | (a, b) :: rest =>
    map (segment_sum zero add mul tail a b) (seq 0 (length a)) ++
    filter_stream zero add mul (map (segment_sum zero add mul tail a b) (seq (length a) (length b - 1))) rest
  end.
(** The response a call uses. The filter remembers the function and the number of argument bytes of the first call for ever, and as many of the bytes it has
    last stored: arguments of another size overwrite a part of them. A call with the remembered function and exactly the remembered bytes uses the current
    response again. *)
Definition response (c : call V) : list V := match ir_f (c_f V c) (c_args V c) with Some ir => ir | None => [] end.
Fixpoint remembered (f : nat) (bytes : list Z) (current : list V) (calls : list (call V)) : list (list V) :=
  match calls with
  | [] => []
  | c :: rest =>
    if (c_f V c =? f) && (if list_eq_dec Z.eq_dec (c_args V c) bytes then true else false) then current :: remembered f bytes current rest
    else response c :: remembered f (firstn (length bytes) (c_args V c ++ skipn (length (c_args V c)) bytes)) (response c) rest
  end.
Definition used_responses (calls : list (call V)) : list (list V) :=
  match calls with [] => [] | c :: rest => response c :: remembered (c_f V c) (c_args V c) (response c) rest end.
End Spec.

(** The outcome of a first call, depending on which of the allocations number [n] (the state), [n + 1] (a copy of the arguments), [n + 2] (the response) and
    [n + 3] (the tail) succeed and on whether the response function does: [None] for success, otherwise the number of objects that stay allocated although
    nothing refers to them. *)
Definition objects_lost (V : Type) (mem_ok : nat -> bool) (n : nat) (ir : option (list V)) : option nat :=
  if negb (mem_ok n) then Some 0
  else if negb (mem_ok (n + 1)) then Some 1
  else match ir with
  | None => Some 0
  | Some ir => if negb (mem_ok (n + 2)) then Some 0 else if (1 <? length ir) && negb (mem_ok (n + 3)) then Some 1 else None
  end.
(** exactly [k] objects are allocated in [h'] that were not in [h], all others are unchanged *)
Definition lost_objects (V : Type) (h h' : heap V) (k : nat) : Prop :=
  exists lost, length lost = k /\ NoDup lost /\ (forall q, In q lost -> load V h q = None /\ load V h' q <> None) /\
    forall q, ~ In q lost -> load V h' q = load V h q.

(** A call [c] that the filter recognises as a change, when the first call on its state was [first] and the call before was [last]: it differs from the first
    in the function or in the number of argument bytes, or it has as many argument bytes as the call before, but others. *)
Definition changes (V : Type) (first last c : call V) : Prop :=
  c_f V c <> c_f V first \/ length (c_args V c) <> length (c_args V first) \/
  length (c_args V c) = length (c_args V last) /\ c_args V c <> c_args V last.
