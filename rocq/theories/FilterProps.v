(** Properties C04, C05, C06 and C67 *)
From Verif Require Import Base ConvolveModel ConvolveSpec ConvolveProofs FilterModel FilterSpec FilterProofs FilterDemo FilterFinal FilterFailProofs.

(** C04: filtering a signal in any number of consecutive segments with unchanged parameters never fails (when memory and
    the response function do not) and the outputs, concatenated, are the convolution of the whole signal. *)
Theorem c04_filter_segmentation_invariant :
  forall (V : Type) (zero : V) (add mul : V -> V -> V) (ir_f : nat -> list Z -> option (list V))
    (junk : nat -> list V) (junkb : nat -> list Z) (h0 : heap V) (f : nat) (args : list Z) (ir : list V) (inputs : list (list V)),
  (forall n, length (junk n) = n) -> (forall n, length (junkb n) = n) ->
  ir_f f args = Some ir -> ir <> [] ->
  exists outs st h',
    run_calls V zero add mul ir_f (fun _ => true) junk junkb
      (map (fun a => {| c_in := a; c_f := f; c_args := args |}) inputs) None h0 = Some (outs, st, h') /\
    Forall (fun r => fst r = Ok tt) outs /\
    concat (map snd outs) = conv_samples V zero add mul (concat inputs) ir 0 (length (concat inputs)).
Proof. exact filter_segmentation. Qed.
Print Assumptions c04_filter_segmentation_invariant.

Example c04_instance :
  option_map (fun r => concat (map snd (fst (fst r))))
    (demo_run demo_ir (fun _ => true) [demo_call [1] 1 [10;100]; demo_call [2;3] 1 [10;100]]%Z None empty_heap) = Some [1;12;123]%Z.
Proof. reflexivity. Qed.

(** C05 (partial): when all calls on one state use the same response function and the same argument size, every call
    uses exactly the response its own arguments denote, also when the arguments change between calls; the output is the
    overlap-add of the segments with their own responses.  Missing from the full statement: calls that change the
    function or the argument size (false, see the two refutations), and responses that shrink by more than a segment
    (false, see c67). *)
Theorem c05_filter_uses_requested_response_partial :
  forall (V : Type) (zero : V) (add mul : V -> V -> V) (ir_f : nat -> list Z -> option (list V))
    (junk : nat -> list V) (junkb : nat -> list Z) (h0 : heap V) (f n : nat) (calls : list (call V)),
  (forall n, length (junk n) = n) -> (forall n, length (junkb n) = n) ->
  Forall (fun c => c_f V c = f /\ length (c_args V c) = n) calls ->
  Forall (responds V ir_f) calls ->
  tails_fit V 0 (map (segment V ir_f) calls) ->
  exists outs st h',
    run_calls V zero add mul ir_f (fun _ => true) junk junkb calls None h0 = Some (outs, st, h') /\
    Forall (fun r => fst r = Ok tt) outs /\
    concat (map snd outs) =
      map (overlap_add V add mul zero (map (segment V ir_f) calls)) (seq 0 (length (concat (map (c_in V) calls)))).
Proof. exact filter_requested_response. Qed.
Print Assumptions c05_filter_uses_requested_response_partial.

Example c05_instance :
  option_map (fun r => concat (map snd (fst (fst r))))
    (demo_run demo_ir (fun _ => true) [demo_call [1;0] 1 [10]; demo_call [1;0] 1 [20]; demo_call [1;0] 1 [10]]%Z None empty_heap)
  = Some [1;10;1;20;1;10]%Z.
Proof. reflexivity. Qed.

(** C05 refuted: after calls with function 1, then 2, then 1 again with equal arguments, the third call still uses the
    response of function 2 (filter.c:29 compares with a function that is never updated). *)
Theorem c05_function_switch_refuted :
  exists calls : list (call Z),
    (forall c, In c calls -> c_args Z c = [7%Z] /\ c_in Z c = [1%Z]) /\
    map (c_f Z) calls = [1; 2; 1] /\
    exists outs st h', demo_run demo_ir (fun _ => true) calls None empty_heap = Some (outs, st, h') /\
      (* expected, by overlap-add of the requested responses: *)
      map (overlap_add Z Z.add Z.mul 0%Z (map (segment Z demo_ir) calls)) (seq 0 3) = [1; 9; 8]%Z /\
      concat (map snd outs) = [1; 9; 9]%Z.
Proof. exact filter_function_switch. Qed.
Print Assumptions c05_function_switch_refuted.

(** C05 refuted: same function, argument bytes [7], then [7;8], then [7]: the third call uses the response of [7;8]. *)
Theorem c05_argument_size_refuted :
  exists calls : list (call Z),
    map (c_f Z) calls = [1; 1; 1] /\ map (c_args Z) calls = [[7]; [7;8]; [7]]%Z /\ map (c_in Z) calls = [[1;0;0]; [1;0;0]; [1;0;0]]%Z /\
    exists outs st h', demo_run demo_ir (fun _ => true) calls None empty_heap = Some (outs, st, h') /\
      map (overlap_add Z Z.add Z.mul 0%Z (map (segment Z demo_ir) calls)) (seq 0 9) = [1;7;0;1;7;8;1;7;0]%Z /\
      concat (map snd outs) = [1;7;0;1;7;8;1;7;8]%Z.
Proof. exact filter_argument_size. Qed.
Print Assumptions c05_argument_size_refuted.

(** C05, C67: what all sequences of calls compute, with any functions, arguments, argument sizes and response lengths, when memory and the response functions do
    not fail: the responses are those that the filter remembers (used_responses), and each call cuts the tail to its own response length (filter_stream). *)
Theorem c05_all_calls :
  forall (V : Type) (zero : V) (add mul : V -> V -> V) (ir_f : nat -> list Z -> option (list V))
    (junk : nat -> list V) (junkb : nat -> list Z) (h0 : heap V) (calls : list (call V)),
  (forall n, length (junk n) = n) -> (forall n, length (junkb n) = n) ->
  Forall (responds V ir_f) calls ->
  exists outs st h',
    run_calls V zero add mul ir_f (fun _ => true) junk junkb calls None h0 = Some (outs, st, h') /\
    Forall (fun r => fst r = Ok tt) outs /\
    concat (map snd outs) = filter_stream V zero add mul [] (combine (map (c_in V) calls) (used_responses V ir_f calls)).
Proof. intros V zero add mul ir_f junk junkb h0 calls hj hb. exact (run_used V zero add mul ir_f junk junkb hj hb h0 calls). Qed.
Print Assumptions c05_all_calls.

(** function 1 with [7;7], then [8], which overwrites one of the two bytes, then [8;7]: the third call uses the response of [8] *)
Example c05_all_calls_instance :
  let calls := [demo_call [1;0;0] 1 [7;7]; demo_call [1;0;0] 1 [8]; demo_call [1;0;0] 1 [8;7]]%Z in
  Forall (responds Z demo_ir) calls /\ used_responses Z demo_ir calls = [[1;7;7]; [1;8]; [1;8]]%Z /\
  option_map (fun r => concat (map snd (fst (fst r)))) (demo_run demo_ir (fun _ => true) calls None empty_heap) = Some [1;7;7;1;8;0;1;8;0]%Z.
Proof. split; [repeat (apply Forall_cons; [eexists; split; [reflexivity|cbn; lia]|]); apply Forall_nil|split; reflexivity]. Qed.

(** C05 refuted, for all functions, arguments and segments: after function f1, then f2 with arguments b of the same size, a call with f1 and b uses the response
    of f2. *)
Theorem c05_stale_function_refuted :
  forall (V : Type) (zero : V) (add mul : V -> V -> V) (ir_f : nat -> list Z -> option (list V)) (junk : nat -> list V) (junkb : nat -> list Z) (h0 : heap V)
    (f1 f2 : nat) (a b : list Z) (x1 x2 x3 r1 r2 r3 : list V),
  (forall n, length (junk n) = n) -> (forall n, length (junkb n) = n) ->
  f1 <> f2 -> length a = length b -> ir_f f1 a = Some r1 -> ir_f f2 b = Some r2 -> ir_f f1 b = Some r3 -> 0 < length r1 -> 0 < length r2 -> 0 < length r3 ->
  exists outs st h',
    run_calls V zero add mul ir_f (fun _ => true) junk junkb
      [{| c_in := x1; c_f := f1; c_args := a |}; {| c_in := x2; c_f := f2; c_args := b |}; {| c_in := x3; c_f := f1; c_args := b |}] None h0 = Some (outs, st, h') /\
    Forall (fun r => fst r = Ok tt) outs /\
    concat (map snd outs) = filter_stream V zero add mul [] [(x1, r1); (x2, r2); (x3, r2)].
Proof. intros V zero add mul ir_f junk junkb h0 f1 f2 a b x1 x2 x3 r1 r2 r3 hj hb. apply stale_function; assumption. Qed.
Print Assumptions c05_stale_function_refuted.
(** C05 refuted, for all arguments and segments: after arguments a, then b of another size, a call with the bytes of b and, if b is shorter, the remaining bytes of
    a, cut to the size of a, uses the response of b. *)
Theorem c05_stale_size_refuted :
  forall (V : Type) (zero : V) (add mul : V -> V -> V) (ir_f : nat -> list Z -> option (list V)) (junk : nat -> list V) (junkb : nat -> list Z) (h0 : heap V)
    (f : nat) (a b : list Z) (x1 x2 x3 r1 r2 r3 : list V),
  (forall n, length (junk n) = n) -> (forall n, length (junkb n) = n) ->
  let c := firstn (length a) (b ++ skipn (length b) a) in
  length b <> length a -> ir_f f a = Some r1 -> ir_f f b = Some r2 -> ir_f f c = Some r3 -> 0 < length r1 -> 0 < length r2 -> 0 < length r3 ->
  exists outs st h',
    run_calls V zero add mul ir_f (fun _ => true) junk junkb
      [{| c_in := x1; c_f := f; c_args := a |}; {| c_in := x2; c_f := f; c_args := b |}; {| c_in := x3; c_f := f; c_args := c |}] None h0 = Some (outs, st, h') /\
    Forall (fun r => fst r = Ok tt) outs /\
    concat (map snd outs) = filter_stream V zero add mul [] [(x1, r1); (x2, r2); (x3, r2)].
Proof. intros V zero add mul ir_f junk junkb h0 f a b x1 x2 x3 r1 r2 r3 hj hb. apply stale_size; assumption. Qed.
Print Assumptions c05_stale_size_refuted.
(** the requested third response is another one, in both cases *)
Example c05_stale_instance :
  (demo_ir 1 [7%Z] = Some [1;7]%Z /\ demo_ir 2 [8%Z] = Some [2;8]%Z /\ demo_ir 1 [8%Z] = Some [1;8]%Z) /\
  filter_stream Z 0%Z Z.add Z.mul [] [([1], [1;7]); ([1], [2;8]); ([1;0], [2;8])]%Z = [1;9;10;8]%Z /\
  filter_stream Z 0%Z Z.add Z.mul [] [([1], [1;7]); ([1], [2;8]); ([1;0], [1;8])]%Z = [1;9;9;8]%Z /\
  firstn 2 ([8] ++ skipn 1 [7;7])%Z = [8;7]%Z.
Proof. repeat split. Qed.

(** C06 (partial): for every sequence of calls with arbitrary functions, arguments and segment sizes, if no allocation
    and no response function fails, then no dead object is accessed or freed, and freeing the state restores exactly the
    objects that existed before: nothing leaks.  Missing: the failure paths, which violate it (below). *)
Theorem c06_filter_ownership_partial :
  forall (V : Type) (zero : V) (add mul : V -> V -> V) (ir_f : nat -> list Z -> option (list V))
    (junk : nat -> list V) (junkb : nat -> list Z) (h0 : heap V) (calls : list (call V)),
  (forall n, length (junk n) = n) -> (forall n, length (junkb n) = n) ->
  Forall (responds V ir_f) calls ->
  exists outs st h' h'',
    run_calls V zero add mul ir_f (fun _ => true) junk junkb calls None h0 = Some (outs, st, h') /\
    Forall (fun r => fst r = Ok tt) outs /\
    state_free V st h' = Some h'' /\
    forall p, load V h'' p = load V h0 p.
Proof. exact filter_ownership. Qed.
Print Assumptions c06_filter_ownership_partial.

Example c06_instance :
  match demo_run demo_ir (fun _ => true)
    [demo_call [1] 1 [10;100]; demo_call [2;3] 2 [10]; demo_call [4] 3 [1;2;3;4;5]; demo_call [4] 3 []]%Z None empty_heap with
  | Some (_, st, h) => option_map (fun h => forallb (fun c => match c with None => true | Some _ => false end) (cells Z h)) (state_free Z st h)
  | None => None
  end = Some true.
Proof. vm_compute; reflexivity. Qed.

(** C06 refuted: if the response function fails on changed arguments (here function 9), the filter reports the failure
    but keeps the pointer to the response it has already freed: freeing the state afterwards is a double free, and
    calling the filter again with the first function's arguments uses freed memory. *)
Theorem c06_failing_response_refuted :
  exists outs st h', demo_run demo_ir (fun _ => true) [demo_call [1] 1 [10]; demo_call [1] 9 [10;20]]%Z None empty_heap = Some (outs, st, h') /\
    map fst outs = [Ok tt; Fail] /\
    state_free Z st h' = None /\
    demo_run demo_ir (fun _ => true) [demo_call [1] 1 [10]]%Z st h' = None.
Proof. exact filter_failing_response. Qed.
Print Assumptions c06_failing_response_refuted.

(** C06 refuted: a failing second allocation leaks the state object: the caller's state variable stays null while one
    object stays allocated. *)
Theorem c06_allocation_failure_leak_refuted :
  exists outs h', demo_run demo_ir (fun n => n <? 1) [demo_call [1] 1 [10]]%Z None empty_heap = Some (outs, None, h') /\
    map fst outs = [Fail] /\ exists o, load Z h' 0 = Some o.
Proof. exact filter_allocation_leak. Qed.
Print Assumptions c06_allocation_failure_leak_refuted.

(** C06: a first call, for every outcome of the allocations and of the response function. It succeeds exactly if objects_lost is None. Otherwise the output and the
    state variable are unchanged, and exactly the given number of objects stays allocated: one if the copy of the arguments or the tail can not be allocated,
    otherwise none. *)
Theorem c06_first_call_partial :
  forall (V : Type) (zero : V) (add mul : V -> V -> V) (ir_f : nat -> list Z -> option (list V)) (mem_ok : nat -> bool)
    (junk : nat -> list V) (junkb : nat -> list Z) (h0 : heap V) (f : nat) (args : list Z) (a out : list V),
  (forall n, length (junkb n) = n) -> (forall ir, ir_f f args = Some ir -> 0 < length ir) -> length out = length a ->
  exists r out' os h', convolution_filter V zero add mul ir_f mem_ok junk junkb a f args (length args) None out h0 = Some (r, out', os, h') /\
  match objects_lost V mem_ok (attempts V h0) (ir_f f args) with
  | None => r = Ok tt
  | Some k => r = Fail /\ out' = out /\ os = None /\ lost_objects V h0 h' k
  end.
Proof. intros V zero add mul ir_f mem_ok junk junkb h0 f args a out hb. apply first_call. exact hb. Qed.
Print Assumptions c06_first_call_partial.
Example c06_first_call_instance :
  (forall ir, demo_ir 1 [10%Z] = Some ir -> 0 < length ir) /\
  map (fun k => objects_lost Z (fun n => negb (n =? k)) 0 (demo_ir 1 [10%Z])) [0; 1; 2; 3; 4] = [Some 0; Some 1; Some 0; Some 1; None] /\
  objects_lost Z (fun _ => true) 0 (demo_ir 9 [10%Z]) = Some 0.
Proof. split; [intros ir e; injection e as <-; cbn; lia|split; reflexivity]. Qed.

(** C06 refuted, for all histories: whenever a call that changes the function or the arguments fails in the response function, freeing the state and any further
    call on it are undefined: the response has been freed and the state still refers to it. *)
Theorem c06_failed_change_refuted :
  forall (V : Type) (zero : V) (add mul : V -> V -> V) (ir_f : nat -> list Z -> option (list V)) (junk : nat -> list V) (junkb : nat -> list Z) (h0 : heap V)
    (first : call V) (rest : list (call V)) (c : call V),
  (forall n, length (junk n) = n) -> (forall n, length (junkb n) = n) ->
  Forall (responds V ir_f) (first :: rest) -> changes V first (last rest first) c -> ir_f (c_f V c) (c_args V c) = None ->
  exists outs sp h',
    run_calls V zero add mul ir_f (fun _ => true) junk junkb (first :: rest ++ [c]) None h0 = Some (outs ++ [(Fail, junk (length (c_in V c)))], Some sp, h') /\
    length outs = S (length rest) /\ Forall (fun r => fst r = Ok tt) outs /\
    state_free V (Some sp) h' = None /\ forall c', run_calls V zero add mul ir_f (fun _ => true) junk junkb [c'] (Some sp) h' = None.
Proof. intros V zero add mul ir_f junk junkb h0 first rest c hj hb. apply failed_change_run; assumption. Qed.
Print Assumptions c06_failed_change_refuted.
Example c06_failed_change_instance :
  let first := demo_call [1]%Z 1 [10]%Z in let rest := [demo_call [1;2]%Z 2 [10;20]%Z] in let c := demo_call [1]%Z 9 [10]%Z in
  Forall (responds Z demo_ir) (first :: rest) /\ changes Z first (last rest first) c /\ demo_ir (c_f Z c) (c_args Z c) = None.
Proof. split; [repeat (apply Forall_cons; [eexists; split; [reflexivity|cbn; lia]|]); apply Forall_nil|split; [left; discriminate|reflexivity]]. Qed.

(** C67 refuted: a response that becomes shorter by more than the segment length cuts off the tail of the earlier
    response: the samples that should still ring out are lost. *)
Theorem c67_shrinking_response_truncates_tail_refuted :
  exists calls : list (call Z), Forall (fun c => c_f Z c = 1) calls /\
    exists outs st h', demo_run (fun _ args => Some (1%Z :: repeat 1%Z (length args))) (fun _ => true) calls None empty_heap = Some (outs, st, h') /\
      map (overlap_add Z Z.add Z.mul 0%Z (map (segment Z (fun _ args => Some (1%Z :: repeat 1%Z (length args)))) calls)) (seq 0 4) = [1; 1; 1; 1]%Z /\
      concat (map snd outs) = [1; 1; 0; 0]%Z.
Proof. exact filter_truncation. Qed.
Print Assumptions c67_shrinking_response_truncates_tail_refuted.
