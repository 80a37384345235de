(** Property C106: ends of paths and repeated use of segments *)
From Coq Require Import QArith Qround Qabs Lqa.
From Verif Require Import Base PathModel PathSpec PendModel PendSpec PendProofs.
Close Scope Q_scope.

(** C106 (partial): for every list of moves, lines, curves and constants, spline_path_start is the origin, spline_path_end the last point that was given, and spline_path_size its
    position rounded down; a constant at the end does not count. Missing: paths in paths, see the refutation. *)
Theorem c106_ends_partial : forall root l p, l <> [] -> regular l -> path_set root (map gbuild l) = Some p ->
  path_start p = Some zero /\ path_end p = Some (last_point zero l) /\
  ((0 <= px (last_point zero l))%Q -> path_size p = Some (Qfloor (px (last_point zero l)))).
Proof. exact ends_correct. Qed.
Print Assumptions c106_ends_partial.
Example c106_ends_instance : exists p, regular [GMove (2, 4)%Q; GArc (6, 8)%Q (1 # 2)%Q; GConstant] /\
  path_set (fun q => q) (map gbuild [GMove (2, 4)%Q; GArc (6, 8)%Q (1 # 2)%Q; GConstant]) = Some p /\ path_end p = Some (6, 8)%Q /\ path_size p = Some 6%Z.
Proof. eexists. split; [cbn; repeat split; reflexivity|]. split; [reflexivity|]. split; vm_compute; reflexivity. Qed.

(** C106 refuted for paths in paths: whatever the path that is the last segment, the end of the whole path is where it begins. *)
Theorem c106_nested_refuted : forall root l sub p, l <> [] -> regular l -> path_set root (map gbuild l ++ [seg_path sub]) = Some p -> Forall (fun g => target g <> None) l ->
  path_end p = Some (last_point zero l).
Proof. exact nested_size. Qed.
Print Assumptions c106_nested_refuted.
Example c106_nested_instance : exists p, path_set (fun q => q) (map gbuild [GLine (5, 1)%Q] ++ [seg_path (100, 3)%Q]) = Some p /\ path_size p = Some 5%Z.
Proof. eexists. split; vm_compute; reflexivity. Qed.

(** C106 (partial): spline_path_segments_get can be called any number of times with the same array of moves, lines and constants and any windows. Every call gives the samples of the
    path and changes nothing in memory. Missing: curves and paths in paths, see the refutations. *)
Theorem c106_repeated_partial : forall root fuel parts ws live, parts <> [] -> ascending 0 parts -> Forall (fun w => 0 <= fst w <= snd w)%Z ws ->
  exists outs a, get_repeatedly root fuel (plain (map build parts)) live ws = Some (outs, a, live) /\ Forall2 (Forall2 Qeq) outs (map (samples_of (pieces_of 0 0 parts)) ws).
Proof. exact get_repeated. Qed.
Print Assumptions c106_repeated_partial.
Example c106_repeated_instance : exists outs a, get_repeatedly (fun q => q) 0 (plain (map build [PMove 2 4; PLine 6 8; PConstant])) [] [(0, 4); (2, 7)]%Z = Some (outs, a, []) /\
  map (map Qred) outs = [[0; 0; 4; 5]; [4; 5; 6; 7; 8]]%Q.
Proof. eexists _, _. split; vm_compute; reflexivity. Qed.
(** the same for all segments but curves made with spline_path_bezier_arc: setting a path again with the same segments gives the same path *)
Theorem c106_set_again_partial : forall root l p, Forall (fun s => prepare s <> PrepareArc) l -> path_set root l = Some p -> path_set root (segments p) = Some p.
Proof. exact set_again. Qed.
Print Assumptions c106_set_again_partial.
Example c106_set_again_instance : exists p, path_set (fun q => q) [seg_bezier2 1 2 3 4 5 6; seg_constant] = Some p /\ segments p <> [seg_bezier2 1 2 3 4 5 6; seg_constant].
Proof. eexists. split; [reflexivity|]. discriminate. Qed.

(** C106 refuted for curves: the curvature is replaced by the control point. For all end points that are on no horizontal line, and every curvature, setting a path with the
    same segments again gives another control point, unless the curvature happens to be the height of the first control point. *)
Theorem c106_arc_refuted : forall root p q c l s l1 s1,
  (px p < px q)%Q -> ~ (py p == py q)%Q -> ~ (c == 0)%Q -> path_set root [seg_move (px p) (py p); seg_arc (px q) (py q) c] = Some l -> path_set root (segments l) = Some l1 ->
  nth_error (segments l) 1 = Some s -> nth_error (segments l1) 1 = Some s1 ->
  exists m m1, nth_error (points s) 1 = Some m /\ nth_error (points s1) 1 = Some m1 /\ (~ (py m == c)%Q -> ~ (py m1 == py m)%Q).
Proof. exact arc_again. Qed.
Print Assumptions c106_arc_refuted.
(** the samples of two calls with the same curve *)
Example c106_arc_instance : exists o1 o2 a, get_repeatedly (fun q => q) 100 (plain [seg_move 0 0; seg_arc 4 6 (1 # 2)]) [] [(0, 4); (0, 4)]%Z = Some ([o1; o2], a, []) /\
  map Qred o1 = [0; 5 # 4; 31 # 16; 17 # 4]%Q /\ map Qred o2 <> [0; 5 # 4; 31 # 16; 17 # 4]%Q.
Proof. eexists _, _, _. split; [vm_compute; reflexivity|]. split; [vm_compute; reflexivity|vm_compute; discriminate]. Qed.

(** C106 (partial): spline_path_segments_get releases the copies of all paths that are segments, each once, and nothing else. Missing: a second call, see the refutation. *)
Theorem c106_released_partial : forall root fuel a live x y out out' a' live', segments_get root fuel a live x y out = Some (out', a', live') ->
  NoDup (addresses a) /\ (forall d, In d live' <-> In d live /\ ~ In d (addresses a)).
Proof. intros. destruct (segments_get_data _ _ _ _ _ _ _ _ _ _ H) as (_ & h2 & h3 & _). split; assumption. Qed.
Print Assumptions c106_released_partial.
(** C106 refuted for paths in paths: the second call with the same segments uses released memory, whatever the windows. *)
Theorem c106_twice_refuted : forall root fuel a live x y out out' a' live' u v out2, segments_get root fuel a live x y out = Some (out', a', live') -> addresses a <> [] ->
  segments_get root fuel a' live' u v out2 = None.
Proof. exact segments_get_twice. Qed.
Print Assumptions c106_twice_refuted.
Example c106_twice_instance : exists out a, segments_get (fun q => q) 0 [(seg_line 2 4, None); (seg_path (5, 5)%Q, Some 7)] [3; 7] 0 2 [0; 0]%Q = Some (out, a, [3]) /\ addresses [(seg_line 2 4, None); (seg_path (5, 5)%Q, Some 7)] = [7].
Proof. eexists _, _. split; vm_compute; reflexivity. Qed.
