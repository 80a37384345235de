(** Properties C10 - C14, C17, C18 and C68 *)
From Verif Require Import Base SeqModel SeqSpec SeqLifeSpec SeqRenderSpec SeqGroupModel SeqGroupSpec SeqParModel SeqParSpec SeqDemo
  SeqListProofs SeqListFinal SeqLifeFinal SeqRenderFinal SeqGroupFinal SeqParFinal.
From Coq Require Import Permutation.

(** C10: any sequence of additions (each successful or failing for lack of memory) followed by sp_seq_events_prepare gives
    a correctly linked list of exactly the added events in ascending start order; events with equal start are in the order
    in which they were added. *)
Theorem c10_list_sorted_stable :
  forall (D : Type) (adds : list (bool * event D)),
  filter fst adds <> [] ->
  exists head h l,
    run_ops D (map (fun x => LAdd D (fst x) (snd x)) adds ++ [LReverse D]) None (empty_heap D) = Some (head, h) /\
    represents D h head l /\
    sorted D (map snd l) /\
    Permutation (map snd l) (map snd (filter fst adds)) /\
    (forall t, starting_at D t (map snd l) = starting_at D t (map snd (filter fst adds))).
Proof. exact adds_reverse. Qed.
Print Assumptions c10_list_sorted_stable.

Example c10_instance :
  exists head h, run_ops Z (map (LAdd Z true) [demo_event 0 5 9 1; demo_event 1 2 9 1; demo_event 2 5 9 1; demo_event 3 0 1 1]%Z ++ [LReverse Z])
    None (empty_heap Z) = Some (head, h) /\
  exists l, represents Z h head l /\ map (fun x => ev_id Z (snd x)) l = [3; 1; 0; 2].
Proof.
  eexists. eexists. split; [reflexivity|].
  exists (combine [3; 1; 0; 2] [demo_event 3 0 1 1; demo_event 1 2 9 1; demo_event 0 5 9 1; demo_event 2 5 9 1]%Z).
  split; [|reflexivity]. split.
  - cbn. repeat (split; [reflexivity|eexists; split; [reflexivity|]]). reflexivity.
  - split; [repeat constructor; cbn; intuition discriminate|repeat constructor; cbn; lia].
Qed.

(** C11: every history of additions, removals and reversals that the specification allows runs without touching
    unallocated memory; the result is the doubly linked list of exactly the elements that the specification says (so
    following next from the head gives every element once, previous is the inverse), and the program's own
    sp_event_list_validate accepts it. *)
Theorem c11_links_consistent :
  forall (D : Type) (ops : list (list_op D)) (h : heap D) (head : option nat) (l l' : list (nat * event D)),
  represents D h head l -> ops_spec D ops (fresh D h) l = Some l' ->
  exists head' h', run_ops D ops head h = Some (head', h') /\ represents D h' head' l' /\ list_validate D head' h' = Some true.
Proof. exact ops_correct. Qed.
Print Assumptions c11_links_consistent.

Example c11_instance :
  represents Z (empty_heap Z) None [] /\
  option_map (map (fun x => (fst x, ev_id Z (snd x))))
    (ops_spec Z [LAdd Z true (demo_event 7 5 9 0); LAdd Z true (demo_event 8 1 9 0); LReverse Z; LAdd Z true (demo_event 9 3 4 0);
                 LRemove Z 0; LReverse Z; LAdd Z false (demo_event 1 1 1 0)] 0 []) = Some [(1, 8); (2, 9)].
Proof. split; [|reflexivity]. unfold represents. repeat constructor. Qed.

Theorem c11_reverse_involutive :
  forall (D : Type) (h : heap D) (head : option nat) (l : list (nat * event D)),
  represents D h head l -> l <> [] ->
  exists head' h' head'' h'',
    list_reverse D head h = Some (head', h') /\ represents D h' head' (rev l) /\
    list_reverse D head' h' = Some (head'', h'') /\ represents D h'' head'' l.
Proof. exact reverse_involutive. Qed.
Print Assumptions c11_reverse_involutive.

Example c11_reverse_instance : represents Z demo_heap demo_head demo_list /\ demo_list <> [].
Proof. split; [exact demo_represents|discriminate]. Qed.

(** C69 refuted: reversing the empty list returns an uninitialised pointer *)
Theorem c69_prepare_empty_list_refuted : forall (D : Type) (h : heap D), list_reverse D None h = None.
Proof. exact reverse_empty. Qed.
Print Assumptions c69_prepare_empty_list_refuted.

(** C12: rendering consecutive blocks applies to the frame at each time [t] exactly the events whose range contains [t],
    each once, in list order and at its own relative time - whatever the blocks are. *)
Theorem c12_rendering_is_pointwise :
  forall (F D : Type) (prepare : event D -> option (event D))
    (generate : nat -> nat -> list F -> event D -> option (list F * event D * bool))
    (t : nat) (blocks : list (nat * list F)) (h : heap D) (head : option nat) (L : list (nat * event D)) (lp : list (event D * stage F)),
  represents D h head L -> map snd L = map fst lp -> sorted D (map fst lp) ->
  Forall (fun eg => ev_start D (fst eg) <= ev_end D (fst eg)) lp ->
  Forall (fun eg => t < ev_end D (fst eg) -> plays F D prepare generate (fst eg) (t - ev_start D (fst eg)) (snd eg)) lp ->
  blocks_exact F t blocks ->
  exists r, run_blocks F D prepare generate t blocks head h = Some r /\ rr_ok F D r = true /\
    concat (rr_outs F D r) = render F D lp t (concat (map snd blocks)).
Proof. exact render_correct. Qed.
Print Assumptions c12_rendering_is_pointwise.

(** C12: two partitions of the same range give the same output. *)
Theorem c12_partition_invariant :
  forall (F D : Type) (prepare : event D -> option (event D))
    (generate : nat -> nat -> list F -> event D -> option (list F * event D * bool))
    (t : nat) (blocks1 blocks2 : list (nat * list F)) (h : heap D) (head : option nat) (L : list (nat * event D))
    (lp : list (event D * stage F)),
  represents D h head L -> map snd L = map fst lp -> sorted D (map fst lp) ->
  Forall (fun eg => ev_start D (fst eg) <= ev_end D (fst eg)) lp ->
  Forall (fun eg => t < ev_end D (fst eg) -> plays F D prepare generate (fst eg) (t - ev_start D (fst eg)) (snd eg)) lp ->
  blocks_exact F t blocks1 -> blocks_exact F t blocks2 -> concat (map snd blocks1) = concat (map snd blocks2) ->
  exists r1 r2, run_blocks F D prepare generate t blocks1 head h = Some r1 /\ run_blocks F D prepare generate t blocks2 head h = Some r2 /\
    rr_ok F D r1 = true /\ rr_ok F D r2 = true /\ concat (rr_outs F D r1) = concat (rr_outs F D r2).
Proof. exact partition_invariant. Qed.
Print Assumptions c12_partition_invariant.

Example c12_instance :
  let lp := map (fun e => (e, demo_signal (ev_data Z e))) demo_events in
  map snd demo_list = map fst lp /\ sorted Z (map fst lp) /\
  Forall (fun eg => ev_start Z (fst eg) <= ev_end Z (fst eg)) lp /\
  Forall (fun eg => 0 < ev_end Z (fst eg) -> plays Z Z demo_prepare demo_generate (fst eg) (0 - ev_start Z (fst eg)) (snd eg)) lp /\
  blocks_exact Z 0 [(2, [0; 0]%Z); (3, [0]%Z); (6, [0; 0; 0]%Z)] /\
  option_map (rr_outs Z Z) (run_blocks Z Z demo_prepare demo_generate 0 [(2, [0; 0]%Z); (3, [0]%Z); (6, [0; 0; 0]%Z)] demo_head demo_heap)
    = Some [[0; 100]; [601]; [303; 202; 203]]%Z /\
  option_map (rr_outs Z Z) (run_blocks Z Z demo_prepare demo_generate 0 [(6, [0; 0; 0; 0; 0; 0]%Z)] demo_head demo_heap)
    = Some [[0; 100; 601; 303; 202; 203]]%Z.
Proof.
  split; [reflexivity|]. split; [cbn; repeat constructor; lia|]. split; [repeat constructor; cbn; lia|]. split.
  { apply Forall_forall. intros [e g] He _. apply in_map_iff in He as [e' [[= <- <-] _]]. apply demo_plays. }
  split; [cbn; repeat split; lia|]. split; reflexivity.
Qed.

(** C13: over any sequence of consecutive sp_seq calls, also when a callback fails, every event has the life cycle of
    [life]; no callback is called for anything else; on failure the list is empty; the memory of removed elements is
    deallocated. *)
Theorem c13_event_life_cycle :
  forall (F D : Type) (prepare : event D -> option (event D))
    (generate : nat -> nat -> list F -> event D -> option (list F * event D * bool))
    (t : nat) (blocks : list (nat * list F)) (h : heap D) (head : option nat) (L : list (nat * event D)) (r : run_result F D),
  callbacks_keep_identity F D prepare generate ->
  represents D h head L -> NoDup (map (ev_id D) (map snd L)) -> sorted D (map snd L) ->
  Forall (fun e => ev_start D e <= ev_end D e) (map snd L) -> ascending F t blocks ->
  run_blocks F D prepare generate t blocks head h = Some r ->
  exists L',
    represents D (rr_heap F D r) (rr_head F D r) L' /\
    (forall e, In e (map snd L) -> life D e t (rr_end F D r) (rr_ok F D r) (map snd L') (acts_of D (ev_id D e) (rr_log F D r))) /\
    (forall i, ~ In i (map (ev_id D) (map snd L)) -> acts_of D i (rr_log F D r) = []) /\
    (rr_ok F D r = false -> L' = []) /\
    (forall p, In p (map fst L) -> ~ In p (map fst L') -> nodes D (rr_heap F D r) p = None).
Proof. exact life_cycle. Qed.
Print Assumptions c13_event_life_cycle.

(** C13: with a final sp_event_list_free, every event with a free function is freed exactly once, after all its other
    callbacks, and all elements are deallocated. *)
Theorem c13_freed_exactly_once :
  forall (F D : Type) (prepare : event D -> option (event D))
    (generate : nat -> nat -> list F -> event D -> option (list F * event D * bool))
    (t : nat) (blocks : list (nat * list F)) (h : heap D) (head : option nat) (L : list (nat * event D)) (r : run_result F D),
  callbacks_keep_identity F D prepare generate ->
  represents D h head L -> NoDup (map (ev_id D) (map snd L)) -> sorted D (map snd L) ->
  Forall (fun e => ev_start D e <= ev_end D e) (map snd L) -> ascending F t blocks ->
  run_blocks F D prepare generate t blocks head h = Some r ->
  exists h' log,
    list_free D (fuel D (rr_heap F D r)) (rr_head F D r) (rr_heap F D r) = Some (h', log) /\
    (forall p, In p (map fst L) -> nodes D h' p = None) /\
    (forall e, In e (map snd L) -> ev_free D e = true ->
      exists before e', acts_of D (ev_id D e) (rr_log F D r ++ log) = before ++ [AFree D e'] /\ same D e' e /\
        Forall (fun a => match a with AFree _ => False | _ => True end) before).
Proof. exact free_calls_final. Qed.
Print Assumptions c13_freed_exactly_once.

Example c13_instance :
  callbacks_keep_identity Z Z demo_prepare demo_generate_failing /\
  represents Z demo_heap demo_head demo_list /\ NoDup (map (ev_id Z) (map snd demo_list)) /\ sorted Z (map snd demo_list) /\
  Forall (fun e => ev_start Z e <= ev_end Z e) (map snd demo_list) /\ ascending Z 0 [(3, [0; 0; 0]%Z); (4, [0]%Z); (9, [0; 0; 0; 0; 0]%Z)] /\
  option_map (fun r => (rr_ok Z Z r, rr_end Z Z r, map (action_id Z) (rr_log Z Z r)))
    (run_blocks Z Z demo_prepare demo_generate_failing 0 [(3, [0; 0; 0]%Z); (4, [0]%Z); (9, [0; 0; 0; 0; 0]%Z)] demo_head demo_heap)
  = Some (false, 4, [0; 0; 1; 1; 2; 2; 0; 0; 1; 2]).
Proof.
  split; [exact demo_keep|]. split; [exact demo_represents|]. split; [repeat constructor; cbn; intuition discriminate|].
  split; [cbn; repeat constructor; lia|]. split; [repeat constructor; cbn; lia|]. split; [cbn; repeat split; lia|reflexivity].
Qed.

(** C14: in every execution of consecutive sp_seq_parallel calls, whatever the schedule of the caller and the workers,
    the outputs are those of sp_seq, for events that add to their output ([additive]). *)
Theorem c14_parallel_equals_sequential :
  forall (F D K : Type) (zero : F) (add : F -> F -> F) (prepare : event D -> option (event D))
    (generate : nat -> nat -> list F -> event D -> option (list F * event D * bool))
    (init : nat -> nat -> list F -> event D -> K) (step : K -> K) (done : K -> bool) (result : K -> list F * event D * bool)
    (t : nat) (blocks : list (nat * list F)) (h : heap D) (head : option nat) (L : list (nat * event D))
    (lp : list (event D * stage F)) (outs : list (list F)) (l' : list (event D)),
  implements_callbacks F D K prepare generate init step done result ->
  represents D h head L -> map snd L = map fst lp -> sorted D (map fst lp) ->
  Forall (fun eg => ev_start D (fst eg) <= ev_end D (fst eg)) lp ->
  Forall (fun eg => t < ev_end D (fst eg) -> plays F D prepare generate (fst eg) (t - ev_start D (fst eg)) (snd eg)) lp ->
  Forall (fun eg => additive F zero add (snd eg)) lp ->
  blocks_fit F t blocks ->
  par_blocks F D K zero add init step done result t blocks (map fst lp) outs l' ->
  exists r, run_blocks F D prepare generate t blocks head h = Some r /\ rr_ok F D r = true /\ rr_outs F D r = outs.
Proof. exact parallel_sequential. Qed.
Print Assumptions c14_parallel_equals_sequential.

(** C14: no schedule leads to a failure, an access out of bounds or a deadlock: from every reachable state the call can
    be completed. *)
Theorem c14_parallel_progress :
  forall (F D K : Type) (zero : F) (add : F -> F -> F) (prepare : event D -> option (event D))
    (generate : nat -> nat -> list F -> event D -> option (list F * event D * bool))
    (init : nat -> nat -> list F -> event D -> K) (step : K -> K) (done : K -> bool) (result : K -> list F * event D * bool)
    (s u : nat) (lp : list (event D * stage F)) (out : list F) (schedule : list choice),
  implements_callbacks F D K prepare generate init step done result ->
  sorted D (map fst lp) ->
  Forall (fun eg => ev_start D (fst eg) <= ev_end D (fst eg)) lp ->
  Forall (fun eg => s < ev_end D (fst eg) -> plays F D prepare generate (fst eg) (s - ev_start D (fst eg)) (snd eg)) lp ->
  Forall (fun eg => additive F zero add (snd eg)) lp ->
  s <= u -> u - s <= length out ->
  exists st, par_run F D K zero add init step done result s u schedule (par_init F D K out (map fst lp)) = Some st /\
    ps_phase F D K st <> Failed /\
    exists schedule' st', par_run F D K zero add init step done result s u schedule' st = Some st' /\ ps_phase F D K st' = Finished.
Proof. exact parallel_progress. Qed.
Print Assumptions c14_parallel_progress.

(** C14: when the call returns, exactly the events that had ended before the block have been freed, in list order, and the others remain in list order with their
    identity, start and end. *)
Theorem c14_parallel_events :
  forall (F D K : Type) (zero : F) (add : F -> F -> F) (prepare : event D -> option (event D))
    (generate : nat -> nat -> list F -> event D -> option (list F * event D * bool))
    (init : nat -> nat -> list F -> event D -> K) (step : K -> K) (done : K -> bool) (result : K -> list F * event D * bool)
    (s u : nat) (lp : list (event D * stage F)) (out : list F) (schedule : list choice) (st : pstate F D K),
  implements_callbacks F D K prepare generate init step done result ->
  sorted D (map fst lp) ->
  Forall (fun eg => ev_start D (fst eg) <= ev_end D (fst eg)) lp ->
  Forall (fun eg => s < ev_end D (fst eg) -> plays F D prepare generate (fst eg) (s - ev_start D (fst eg)) (snd eg)) lp ->
  Forall (fun eg => additive F zero add (snd eg)) lp ->
  s < u -> u - s <= length out ->
  par_run F D K zero add init step done result s u schedule (par_init F D K out (map fst lp)) = Some st -> ps_phase F D K st = Finished ->
  ps_freed F D K st = filter (fun e => ev_end D e <=? s) (map fst lp) /\
  Forall2 (same D) (par_events F D K result st) (filter (fun e => s <? ev_end D e) (map fst lp)).
Proof. exact parallel_events. Qed.
Print Assumptions c14_parallel_events.

Example c14_instance :
  implements_callbacks Z Z demo_task demo_prepare demo_generate demo_init demo_step demo_done demo_result /\
  Forall (fun eg => additive Z 0%Z Z.add (snd eg)) (map (fun e => (e, demo_signal (ev_data Z e))) demo_events) /\
  exists outs l', par_blocks Z Z demo_task 0%Z Z.add demo_init demo_step demo_done demo_result 0 [(4, [0; 0; 0; 0]%Z)] demo_events outs l' /\
    outs = [[0; 100; 601; 303]%Z].
Proof.
  split; [exact demo_implements|]. split.
  - apply Forall_forall. intros [e g] He. apply in_map_iff in He as [e' [[= <- <-] _]]. apply demo_additive.
  - eexists. eexists. split; [eapply par_cons with (schedule := [Main; Worker 0; Main; Main; Worker 2; Main; Main; Worker 2; Worker 0; Main; Worker 1; Worker 1; Main; Main; Main]);
      [vm_compute; reflexivity|reflexivity|apply par_nil]|reflexivity].
Qed.

(** C17: after any sequence of sp_group_add calls on a new group, the group end is the maximum of its initial end and the
    ends of the added events (after the preparation of events that have no end yet); the group holds exactly the added
    events, in start order, first added first; a failed call reports failure and adds nothing. *)
Theorem c17_group_add_covers_events :
  forall (D : Type) (prepare : event (tree D) -> option (event (tree D))) (adds : list (bool * event (tree D))) (group : event (tree D)) l,
  ev_data _ group = TGroup D l -> descending (tree D) l ->
  exists rs group' l',
    add_all D prepare adds group = Some (rs, group') /\ ev_data _ group' = TGroup D l' /\ ev_start _ group' = ev_start _ group /\
    ev_end _ group' = fold_left Nat.max (map (ev_end _) (added D prepare adds)) (ev_end _ group) /\
    descending (tree D) l' /\ Permutation l' (added D prepare adds ++ l) /\
    (forall t, starting_at (tree D) t l' = rev (starting_at (tree D) t (added D prepare adds)) ++ starting_at (tree D) t l) /\
    rs = map (fun x => fst x && match resolve D prepare (snd x) with Some _ => true | None => false end) adds.
Proof. exact add_all_correct. Qed.
Print Assumptions c17_group_add_covers_events.

Example c17_instance :
  let g := demo_group 0 0 [] in
  ev_data _ g = TGroup Z [] /\ descending (tree Z) [] /\
  option_map (fun r => (fst r, ev_end _ (snd r)))
    (add_all Z Some [(true, demo_leaf 3 9 1); (false, demo_leaf 0 99 1); (true, demo_leaf 1 4 1)]%Z g) = Some ([true; false; true], 9).
Proof. repeat split. Qed.

(** C17: sp_group_append places events back to back. *)
Theorem c17_group_append_back_to_back :
  forall (D : Type) (prepare : event (tree D) -> option (event (tree D))) (events resolved : list (event (tree D)))
    (group : event (tree D)) l,
  ev_data _ group = TGroup D l -> descending (tree D) l ->
  map (resolve D prepare) events = map Some resolved ->
  exists rs group' l',
    append_all D prepare events group = Some (rs, group') /\ ev_data _ group' = TGroup D l' /\ ev_start _ group' = ev_start _ group /\
    ev_end _ group' = ev_end _ group + list_sum (map (ev_end _) resolved) /\
    descending (tree D) l' /\ Permutation l' (placed D (ev_end _ group) resolved ++ l) /\ rs = map (fun _ => true) events.
Proof. exact append_all_correct. Qed.
Print Assumptions c17_group_append_back_to_back.

Example c17_append_instance :
  let es := [demo_leaf 0 9 1; demo_leaf 2 4 1]%Z in
  map (resolve Z Some) es = map Some es /\
  option_map (fun r => (ev_end _ (snd r), match ev_data _ (snd r) with TGroup l => map (ev_start _) l | _ => [] end))
    (append_all Z Some es (demo_group 0 1 [])) = Some (14, [12; 1]).
Proof. repeat split. Qed.

(** C68: a group addition that fails leaves the group as it was: holds for sp_group_add *)
Theorem c68_failed_add_changes_nothing_partial :
  forall (D : Type) (prepare : event (tree D) -> option (event (tree D))) ok (group e group' : event (tree D)),
  group_add D prepare ok group e = Some (false, group') -> group' = group.
Proof. exact failed_add. Qed.
Print Assumptions c68_failed_add_changes_nothing_partial.

Example c68_instance : group_add Z Some false (demo_group 0 1 []) (demo_leaf 0 9 1) = Some (false, demo_group 0 1 []).
Proof. reflexivity. Qed.

(** C68 refuted for sp_group_append: the group end has moved although the event was not added *)
Theorem c68_failed_append_moves_end_refuted :
  exists group e group', group_append Z Some false group e = Some (false, group') /\
    ev_data _ group' = ev_data _ group /\ ev_end _ group = 1 /\ ev_end _ group' = 10.
Proof. exists (demo_group 0 1 []), (demo_leaf 0 9 1). eexists. repeat split. Qed.
Print Assumptions c68_failed_append_moves_end_refuted.

(** C18: rendering trees of groups of any depth applies to each frame exactly the leaves whose absolute range contains
    it, at their relative times, in order, for every partition into blocks. *)
Theorem c18_nested_groups_render_leaves :
  forall (F D : Type) (leaf_prepare : D -> option D) (leaf_generate : nat -> nat -> list F -> D -> option (list F * D * bool))
    (sig : D -> stage F) (n t : nat) (blocks : list (nat * list F)) (h : heap (tree D)) (head : option nat) L,
  represents (tree D) h head L -> sorted (tree D) (map snd L) ->
  Forall (well_formed_event F D leaf_prepare leaf_generate sig n) (map snd L) ->
  Forall (fun e => t <= ev_start _ e) (map snd L) -> blocks_exact F t blocks ->
  exists r,
    run_blocks F (tree D) (tprepare D leaf_prepare) (tgenerate F D leaf_prepare leaf_generate n) t blocks head h = Some r /\
    rr_ok F (tree D) r = true /\
    concat (rr_outs F (tree D) r) =
      mapi (leaf_frame F D sig (concat (map (event_leaves D 0) (map snd L)))) t (concat (map snd blocks)).
Proof. exact tree_run. Qed.
Print Assumptions c18_nested_groups_render_leaves.

(** C18: a group renders as its events shifted to the group start *)
Theorem c18_group_equals_shifted_events :
  forall (F D : Type) (leaf_prepare : D -> option D) (leaf_generate : nat -> nat -> list F -> D -> option (list F * D * bool))
    (sig : D -> stage F) (n t : nat) (blocks : list (nat * list F)) (g : event (tree D)) l h1 head1 L1 h2 head2 L2,
  ev_data _ g = TGroup D l -> well_formed_event F D leaf_prepare leaf_generate sig (S n) g -> t <= ev_start _ g ->
  represents (tree D) h1 head1 L1 -> map snd L1 = [g] ->
  represents (tree D) h2 head2 L2 -> map snd L2 = map (tshift D (ev_start _ g)) (rev l) ->
  blocks_exact F t blocks ->
  exists r1 r2,
    run_blocks F (tree D) (tprepare D leaf_prepare) (tgenerate F D leaf_prepare leaf_generate (S n)) t blocks head1 h1 = Some r1 /\
    run_blocks F (tree D) (tprepare D leaf_prepare) (tgenerate F D leaf_prepare leaf_generate (S n)) t blocks head2 h2 = Some r2 /\
    rr_ok F (tree D) r1 = true /\ rr_ok F (tree D) r2 = true /\ concat (rr_outs F (tree D) r1) = concat (rr_outs F (tree D) r2).
Proof. exact group_shift. Qed.
Print Assumptions c18_group_equals_shifted_events.

Example c18_instance :
  well_formed_event Z Z Some demo_leaf_generate demo_signal 2 demo_tree /\
  represents (tree Z) (single_heap demo_tree) (Some 0) [(0, demo_tree)] /\
  option_map (rr_outs Z (tree Z))
    (run_blocks Z (tree Z) (tprepare Z Some) (tgenerate Z Z Some demo_leaf_generate 2) 0 [(2, [0; 0]%Z); (5, [0; 0; 0]%Z); (7, [0; 0]%Z)]
       (Some 0) (single_heap demo_tree)) = Some [[0; 30]; [31; 52; 31]; [11; 0]]%Z.
Proof. split; [exact demo_tree_wf|]. split; [apply single_represents|reflexivity]. Qed.
