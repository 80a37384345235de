(** Property C124: paths made with spline_path_set_copy are independent *)
From Coq Require Import QArith.
From Verif Require Import Base PathModel PathSpec PendModel PendSpec PcopyModel PcopySpec PcopyProofs.
Close Scope Q_scope.

(** C124 (partial): any number of copies of an array of segments, changes of the array, reads of the paths, calls of spline_path_free and releases of the segments of a path, in any order:
    every path gives the samples of a path of its own that is made from the segments as they were when it was copied. The array of the user has only the changes of the user. What is allocated
    in the end, apart from what was before, is one array for each path whose segments were not released; so releasing all leaves nothing, and spline_path_free does not do it.
    Failed copies change nothing. Missing: paths in paths, see the refutation. *)
Theorem c124_independent_partial : forall root fuel m d l uses r l' paths, block m d = Some (plain l) -> (forall q, next m <= q -> block m q = None) -> value_run root fuel l [] uses = Some (r, l', paths) ->
  exists m' hs, run root fuel m d [] uses = Some (r, m', hs) /\ block m' d = Some (plain l') /\ live m' = live m /\ (forall q, q < next m -> q <> d -> block m' q = block m q) /\
    length hs = length paths /\ NoDup (map place hs) /\
    (forall q, next m <= q -> block m' q <> None <-> exists k h p, nth_error hs k = Some h /\ place h = q /\ nth_error paths k = Some (Some p)).
Proof. exact independent. Qed.
Print Assumptions c124_independent_partial.
(** two copies of a curve with a change between them, a failed copy, reads of both, and the release of the first *)
Example c124_independent_case : exists r l' paths, value_run (fun q => q) 100 [seg_move 0 0; seg_arc 4 6 (1 # 2)] []
    [Copy true; Change 1 (seg_line 4 8); Copy false; Copy true; Copy true; Get 0 0 4 [7; 7; 7; 7]%Q; Get 1 0 4 [7; 7; 7; 7]%Q; Free 0; Release 0; Get 2 2 3 [7]%Q] = Some (r, l', paths) /\
  map (fun x => match x with Samples l => map Qred l | Status z => [inject_Z z] end) r = [[0]; [1]; [0]; [0]; [0; 5 # 4; 31 # 16; 17 # 4]; [0; 2; 4; 6]; [4]]%Q /\
  map (fun x => match x with Some _ => true | None => false end) paths = [false; true; true].
Proof. eexists _, _, _. split; [vm_compute; reflexivity|]. split; vm_compute; reflexivity. Qed.

(** C124 refuted for paths in paths: the copies share the inner path. Whatever the other segments, after two copies and the first spline_path_free the second one frees memory that is already free. *)
Theorem c124_nested_refuted : forall root fuel m d a p, block m d = Some a -> d < next m -> NoDup (addresses a) -> incl (addresses a) (live m) -> addresses a <> [] -> path_set root (map fst a) = Some p ->
  (exists m' hs, run root fuel m d [] [Copy true; Copy true; Free 0] = Some ([Status 0; Status 0], m', hs)) /\ run root fuel m d [] [Copy true; Copy true; Free 0; Free 1] = None.
Proof. exact free_both. Qed.
Print Assumptions c124_nested_refuted.
Example c124_nested_case : exists p, path_set (fun q => q) (map fst [(seg_line 2 4, None); (seg_path (5, 5)%Q, Some 7)]) = Some p /\ addresses [(seg_line 2 4, None); (seg_path (5, 5)%Q, Some 7)] = [7].
Proof. eexists. split; vm_compute; reflexivity. Qed.
