(** C91, C92, C93 *)
From Verif Require Import Base UtilModel UtilSpec UtilProofs.
From Coq Require Import QArith Qabs Permutation.
Open Scope nat_scope.

(** C91: what was added is freed, the last added first, and freeing again afterwards frees nothing twice *)
Theorem c91_register_frees : forall (A : Type) (size : nat) (l : list (use A)), fits size 0 l ->
  exists r, run_uses (memreg_init size) l = Some (freed_by [] l, r) /\ index r = length (left_after [] l).
Proof. exact @uses_init. Qed.
Print Assumptions c91_register_frees.

(** every element added is freed exactly once when the last use frees *)
Theorem c91_each_once : forall (A : Type) (size : nat) (l : list (use A)), fits size 0 (l ++ [FreeAll]) ->
  exists freed r, run_uses (memreg_init size) (l ++ [FreeAll]) = Some (freed, r) /\ Permutation freed (added (l ++ [FreeAll])) /\ index r = 0.
Proof.
  intros A size l F. destruct (uses_init size _ F) as (r & E & I). exists (freed_by [] (l ++ [FreeAll])), r. split; [exact E|].
  pose proof (freed_perm (l ++ [FreeAll]) []) as P. rewrite left_free, app_nil_r in P. rewrite left_free in I. auto.
Qed.
Print Assumptions c91_each_once.

(** a register that is too small is overrun *)
Theorem c91_register_overrun : forall (A : Type) (size : nat) (l : list (use A)), ~ fits size 0 l -> run_uses (memreg_init size) l = None.
Proof.
  intros A size l N. destruct (run_uses (memreg_init size) l) as [p|] eqn:E; [|reflexivity]. exfalso. apply N.
  apply (uses_fits size l (memreg_init size) 0 p); [cbn; apply repeat_length|reflexivity|exact E].
Qed.
Print Assumptions c91_register_overrun.

Example c91_instance : fits 2 0 ([Add 7; Add 8; FreeAll; Add 9] ++ [FreeAll]) /\
  option_map fst (run_uses (memreg_init 2) ([Add 7; Add 8; FreeAll; Add 9] ++ [FreeAll])) = Some [8; 7; 9] /\
  ~ fits 2 0 [Add 7; Add 8; Add 9] /\ run_uses (memreg_init 2) [Add 7; Add 8; Add 9] = None.
Proof. cbn. splits; auto. lia. Qed.

(** C92 *)
Theorem c92_nearly_equal : forall a b margin : Q, nearly_equal a b margin = true <-> (Qabs (a - b) < margin)%Q.
Proof. exact nearly_spec. Qed.
Print Assumptions c92_nearly_equal.

Theorem c92_arrays_nearly_equal : forall (a b : list Q) (margin : Q), exists r, array_nearly_equal a (length a) b (length b) margin = Some r /\
  (r = true <-> Forall2 (fun x y => Qabs (x - y) < margin)%Q a b).
Proof. exact array_nearly_ok. Qed.
Print Assumptions c92_arrays_nearly_equal.

Example c92_instance : nearly_equal (1#2) (6#10) (2#10) = true /\ nearly_equal (1#2) (6#10) (1#10) = false /\
  array_nearly_equal [1#2; 1#1] 2 [6#10; 1#1] 2 (2#10) = Some true /\ array_nearly_equal [1#2; 1#1] 2 [6#10; 2#1] 2 (2#10) = Some false /\
  array_nearly_equal [1#2; 1#1] 2 [6#10] 1 (2#10) = Some false.
Proof. splits; reflexivity. Qed.

(** C93: whatever other processes create meanwhile and whatever is permitted, nothing disappears, and the path exists after a result of 1 *)
Theorem c93_directory_result : forall others permitted b c w r w', ensure others permitted b c w = Some (r, w') ->
  keeps w w' /\ (r = true -> present w' (mkpath b c) = true).
Proof. intros o p b c w r w' E. destruct (ensure_result o p b c w r w' E) as [K S]. split; auto. intro H. apply (S H). Qed.
Print Assumptions c93_directory_result.

(** paths that begin with a slash or "./" never lead to undefined behaviour *)
Theorem c93_directory_defined_partial : forall others permitted b c w, b <> Relative -> present w (mkpath b []) = true ->
  exists r w', ensure others permitted b c w = Some (r, w').
Proof. intros o p b c w B H. exact (ensure_defined o p b c B w H). Qed.
Print Assumptions c93_directory_defined_partial.

(** without other processes and with all permissions, the path exists afterwards and only the path and directories that contain it were created *)
Theorem c93_directory_created_partial : forall others permitted b c w, alone others -> (forall p, permitted p = true) -> b <> Relative -> present w (mkpath b []) = true ->
  exists w', ensure others permitted b c w = Some (true, w') /\ present w' (mkpath b c) = true /\ keeps w w' /\
    forall q, present w' q = true -> present w q = true \/ leads_to q (mkpath b c).
Proof.
  intros o p b c w AL PM B H. destruct (ensure_alone o p b c AL PM B w H) as (w' & E & Q). exists w'. destruct (ensure_result _ _ _ _ _ _ _ E) as [K S]. splits; auto. apply (S eq_refl).
Qed.
Print Assumptions c93_directory_created_partial.

(** a path like "a/b" of which no part exists: a constant string is freed *)
Theorem c93_relative_refuted : forall others permitted c w, alone others -> c <> [] ->
  (forall n, n < length c -> present w (mkpath Relative (skipn n c)) = false) -> ensure others permitted Relative c w = None.
Proof. intros o p c w AL NE H. exact (ensure_relative o p c AL NE w H). Qed.
Print Assumptions c93_relative_refuted.

(** the result is 0 although the path exists when another process creates it between the check and mkdir *)
Theorem c93_race_refuted : forall others permitted b n w, b <> Relative -> present w (mkpath b []) = true -> present w (mkpath b [n]) = false ->
  (forall t, others t (mkpath b [n]) = (t =? time w + 2)) -> exists w', ensure others permitted b [n] w = Some (false, w') /\ present w' (mkpath b [n]) = true.
Proof. exact ensure_race. Qed.
Print Assumptions c93_race_refuted.

Definition c93_start : world := mkworld (fun p => path_eqb p (mkpath Absolute []) || path_eqb p (mkpath Relative [])) 0 0%Z.
Example c93_instance : present c93_start (mkpath Absolute []) = true /\
  option_map (fun x => (fst x, present (snd x) (mkpath Absolute [1]), present (snd x) (mkpath Absolute [2]))) (ensure (fun _ _ => false) (fun _ => true) Absolute [2; 1] c93_start) = Some (true, true, false) /\
  option_map fst (ensure (fun _ _ => false) (fun p => negb (path_eqb p (mkpath Absolute [1]))) Absolute [2; 1] c93_start) = Some false /\
  ensure (fun _ _ => false) (fun _ => true) Relative [2; 1] c93_start = None /\
  option_map fst (ensure (fun t p => (t =? 2) && path_eqb p (mkpath Absolute [1])) (fun _ => true) Absolute [1] c93_start) = Some false.
Proof. splits; reflexivity. Qed.
