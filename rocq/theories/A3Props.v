(** Growable arrays: theorems *)
From Verif Require Import Base A3Model A3Spec A3Proofs.
Open Scope Z_scope.

(** C117: every sequence of additions to an array that is not full, removals from an array that is not empty, clearing, resizing that succeeds
    or fails, and reads of added elements behaves like the list of the elements; the reported sizes are those of the list. The array can be freed
    once. Missing: size zero and sizes whose bytes do not fit into 64 bits, see below. *)
Theorem c117_array_partial :
  forall (V : Type) (width n : Z) (uses : list (a3_use V)) (r : list (a3_result V)) (cap : Z) (l : list V),
  0 < width -> 0 < n -> n * width < 2 ^ 64 -> stack_run width n [] uses = Some (r, (cap, l)) ->
  exists a0 a, a3_new width true n = (0, Some a0) /\ a3_new (V:=V) width false n = (1, None) /\ a3_run width a0 uses = Some (r, a) /\
  a3_size a = Z.of_nat (length l) /\ a3_max_size a = cap /\ a3_unused_size a = cap - Z.of_nat (length l) /\
  (a3_full a = true <-> Z.of_nat (length l) = cap) /\ (a3_not_full a = true <-> Z.of_nat (length l) < cap) /\
  (forall i v, nth_error l i = Some v -> a3_get a (Z.of_nat i) = Some v) /\ exists a', a3_free a = Some a' /\ a3_free a' = None.
Proof.
  intros V width n uses r cap l Hw Hn Hf E. destruct (uses_correct width Hw n uses r cap l Hn Hf E) as (a0 & a & H0 & H). exists a0, a. split; [exact H0|]. split; [reflexivity|exact H].
Qed.
Print Assumptions c117_array_partial.
Example c117_array_case :
  stack_run 16 2 [] [Add 5; Add 6; Resize false 9; Resize true 3; Get 1; Add 7; Remove; Resize true 1; Get 0] =
  Some ([Status 1; Status 0; Element 6; Status 0; Element 5], (1, [5])).
Proof. reflexivity. Qed.
(** C117: for elements of every size but one byte there is a length for which creation succeeds and the array is not full, but the first addition
    writes outside of the memory, because the number of bytes wraps *)
Theorem c117_large_refuted :
  forall (V : Type) (width : Z), 1 < width < 2 ^ 64 ->
  exists n a, 0 < n < 2 ^ 64 /\ a3_new (V:=V) width true n = (0, Some a) /\ a3_not_full a = true /\ forall v, a3_add a v = None.
Proof. intros V width H. exact (large_new width (Z.lt_trans _ 1 _ Z.lt_0_1 (proj1 H)) H). Qed.
Print Assumptions c117_large_refuted.
Example c117_large_case : fst (a3_new (V:=Z) 16 true (2 ^ 60)) = 0 /\ elements 16 (2 ^ 60) = 0%nat /\ 1 < 16 < 2 ^ 64.
Proof. repeat split. Qed.
(** C117: if realloc returns 0 for zero bytes then a resize of any array to zero reports an error like one that leaves the array as it was, but
    the elements are gone and every further use, also freeing, is undefined *)
Theorem c117_resize_zero_refuted :
  forall (V : Type) (width : Z) (a : array3 V), cells a <> None ->
  exists a', a3_resize width false a 0 = Some (1, a') /\ a3_size a' = a3_size a /\ a3_max_size a' = a3_max_size a /\
  a3_free a' = None /\ (forall v, a3_add a' v = None) /\ (forall i, a3_get a' i = None) /\ (forall ok n, a3_resize width ok a' n = None).
Proof.
  intros V width a H. destruct (resize_zero width a H) as (a' & E & Hs & Hu & R). exists a'. split; [exact E|]. split; [exact Hu|]. split; [exact Hs|exact R].
Qed.
Print Assumptions c117_resize_zero_refuted.
Example c117_resize_zero_case : cells (mkarray3 (Some [Some 5; None]) 2 1) <> None.
Proof. discriminate. Qed.
(** C117: after any additions to a new array, array3_data_last is the last added element if the array is full and an element that has never been
    set otherwise *)
Theorem c117_data_last_partial :
  forall (V : Type) (width n : Z) (l : list V), 0 < width -> 0 < n -> n * width < 2 ^ 64 -> Z.of_nat (length l) <= n ->
  exists a0 a, a3_new width true n = (0, Some a0) /\ a3_run width a0 (map Add l) = Some ([], a) /\
  a3_data_last a = if Z.of_nat (length l) =? n then nth_error l (length l - 1) else None.
Proof. intros V width n l Hw. exact (adds_last width Hw n l). Qed.
Print Assumptions c117_data_last_partial.
Theorem c117_data_last_refuted :
  forall (V : Type) (width n : Z) (l : list V), 0 < width -> 0 < n -> n * width < 2 ^ 64 -> Z.of_nat (length l) < n ->
  exists a0 a, a3_new width true n = (0, Some a0) /\ a3_run width a0 (map Add l) = Some ([], a) /\ a3_data_last a = None.
Proof.
  intros V width n l Hw Hn Hf Hl. destruct (adds_last width Hw n l Hn Hf (Z.lt_le_incl _ _ Hl)) as (a0 & a & E0 & E & D). exists a0, a. split; [exact E0|]. split; [exact E|].
  rewrite D. destruct (Z.eqb_spec (Z.of_nat (length l)) n); [lia|reflexivity].
Qed.
Print Assumptions c117_data_last_refuted.
Example c117_data_last_case :
  (a <- snd (a3_new 16 true 2) ;; '(_, a) <- a3_run 16 a (map Add [7; 8]) ;; a3_data_last a) = Some 8 /\
  (a <- snd (a3_new 16 true 3) ;; '(_, a) <- a3_run 16 a (map Add [7; 8]) ;; a3_data_last a) = None.
Proof. split; reflexivity. Qed.
(** C117: the number of elements of arrays from array3_declare_stack is not set. For every number [u] that happens to be there and is not below
    the size, the first addition writes outside of the array. *)
Theorem c117_declare_stack_refuted : forall (V : Type) (n u : Z) (v : V), 0 <= n <= u -> a3_add (a3_declare_stack n u) v = None.
Proof. intros V n u v. exact (stack_add n u v). Qed.
Print Assumptions c117_declare_stack_refuted.
Example c117_declare_stack_case : 0 <= 4 <= 7 /\ a3_add (a3_declare_stack 4 7) 1 = None.
Proof. split; [lia|reflexivity]. Qed.
