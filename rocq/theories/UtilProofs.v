From Verif Require Import Base UtilModel UtilSpec.
From Coq Require Import QArith Qabs Permutation.
Open Scope nat_scope.

(** ** memreg *)
Section M.
Context {A : Type}.
Definition holds (r : register A) (size : nat) (stack : list A) : Prop :=
  length (slots r) = size /\ index r = length stack /\ forall i, i < length stack -> nth_error (slots r) i = Some (nth_error (rev stack) i).
Lemma free_loop_ok (s : list (option A)) stack : (forall i, i < length stack -> nth_error s i = Some (nth_error (rev stack) i)) -> free_loop s (length stack) = Some stack.
Proof.
  induction stack as [|a stack IH]; intro H; [reflexivity|]. cbn [length free_loop]. unfold aget. rewrite (H (length stack)) by (cbn; lia). cbn [bind rev].
  rewrite nth_error_app2 by (rewrite rev_length; lia). rewrite rev_length, Nat.sub_diag. cbn [nth_error bind]. rewrite IH; [reflexivity|].
  intros i Hi. rewrite H by (cbn; lia). cbn [rev]. rewrite nth_error_app1 by (rewrite rev_length; lia). reflexivity.
Qed.
Lemma uses_ok size l : forall (r : register A) stack, holds r size stack -> fits size (length stack) l ->
  exists r', run_uses r l = Some (freed_by stack l, r') /\ holds r' size (left_after stack l).
Proof.
  induction l as [|[a|] l IH]; intros r stack (L & I & G) F.
  - exists r. split; [reflexivity|]. repeat split; auto.
  - destruct F as [F1 F2]. cbn [run_uses freed_by left_after]. unfold memreg_add.
    destruct (aset_some (slots r) (index r) (Some a)) as [s E]; [lia|]. rewrite E. cbn [bind].
    apply IH; [|exact F2]. split; [cbn [slots]; rewrite (aset_length _ _ _ _ E); exact L|]. split; [cbn; lia|].
    intros i Hi. cbn [slots]. rewrite (aset_get _ _ _ _ i E). cbn [rev]. cbn [length] in Hi. destruct (Nat.eqb_spec i (index r)) as [->|N].
    + rewrite nth_error_app2 by (rewrite rev_length; lia). rewrite rev_length, I, Nat.sub_diag. reflexivity.
    + rewrite nth_error_app1 by (rewrite rev_length; lia). apply G. lia.
  - cbn [run_uses freed_by left_after fits] in *. unfold memreg_free. rewrite I, free_loop_ok by exact G. cbn [bind].
    destruct (IH (mkregister (slots r) 0) []) as (r' & E & H); [|exact F|].
    { split; [exact L|]. split; [reflexivity|]. intros i Hi. cbn in Hi. lia. }
    rewrite E. cbn [bind]. exists r'. auto.
Qed.
Lemma uses_init size (l : list (use A)) : fits size 0 l -> exists r', run_uses (memreg_init size) l = Some (freed_by [] l, r') /\ index r' = length (left_after [] l).
Proof.
  intro F. destruct (uses_ok size l (memreg_init size) []) as (r' & E & _ & I & _); [|exact F|exists r'; auto].
  split; [cbn; apply repeat_length|]. split; [reflexivity|]. intros i Hi. cbn in Hi. lia.
Qed.
Lemma uses_fits size l : forall (r : register A) n res, length (slots r) = size -> index r = n -> run_uses r l = Some res -> fits size n l.
Proof.
  induction l as [|[a|] l IH]; intros r n res L I H; cbn [run_uses fits] in *; auto.
  - unfold memreg_add in H. destruct (aset (slots r) (index r) (Some a)) as [s|] eqn:E; [|discriminate]. cbn [bind] in H. split; [apply aset_lt in E; lia|].
    apply (IH _ (S n) _) in H; [exact H| |cbn; lia]. cbn [slots]. rewrite (aset_length _ _ _ _ E). exact L.
  - unfold memreg_free in H. destruct (free_loop (slots r) (index r)) as [f|]; [|discriminate]. cbn [bind] in H.
    destruct (run_uses (mkregister (slots r) 0) l) as [p|] eqn:E; [|discriminate]. apply (IH _ 0 _) in E; auto.
Qed.
Lemma freed_perm (l : list (use A)) : forall stack, Permutation (freed_by stack l ++ left_after stack l) (stack ++ added l).
Proof.
  induction l as [|[a|] l IH]; intro stack; cbn [freed_by left_after added].
  - cbn. now rewrite app_nil_r.
  - rewrite IH. cbn [app]. apply Permutation_middle.
  - rewrite <- app_assoc. apply Permutation_app_head. apply IH.
Qed.
Lemma left_free (l : list (use A)) : forall stack, left_after stack (l ++ [FreeAll]) = [].
Proof. induction l as [|[a|] l IH]; intro stack; cbn; auto. Qed.
End M.

(** ** comparison *)
Lemma nearly_spec a b margin : nearly_equal a b margin = true <-> (Qabs (a - b) < margin)%Q.
Proof.
  unfold nearly_equal. destruct (Qle_bool margin (Qabs (a - b))) eqn:E; cbn [negb].
  - apply Qle_bool_iff in E. split; [discriminate|]. intro H. exfalso. exact (Qlt_not_le _ _ H E).
  - split; auto. intros _. apply Qnot_le_lt. intro H. apply Qle_bool_iff in H. congruence.
Qed.
Lemma nearly_loop_ok a b margin n : forall i, i + n <= length a -> i + n <= length b ->
  exists r, nearly_loop a b margin i n = Some r /\
  (r = true <-> forall j x y, i <= j < i + n -> nth_error a j = Some x -> nth_error b j = Some y -> (Qabs (x - y) < margin)%Q).
Proof.
  induction n as [|n IH]; intros i Ha Hb.
  - exists true. split; [reflexivity|]. split; auto. intros _ j x y J. lia.
  - cbn [nearly_loop]. destruct (nth_error_some a i ltac:(lia)) as [x Ex]. destruct (nth_error_some b i ltac:(lia)) as [y Ey]. unfold aget. rewrite Ex, Ey. cbn [bind].
    destruct (nearly_equal x y margin) eqn:E.
    + destruct (IH (S i) ltac:(lia) ltac:(lia)) as (r & Er & Hr). exists r. split; [exact Er|]. rewrite Hr. apply nearly_spec in E. split; intros H j u v J U V.
      * destruct (Nat.eq_dec j i) as [->|]; [congruence|]. apply (H j); auto. lia.
      * apply (H j); auto. lia.
    + exists false. split; [reflexivity|]. split; [discriminate|]. intro H. exfalso. specialize (H i x y ltac:(lia) Ex Ey). apply nearly_spec in H. congruence.
Qed.
Lemma array_nearly_ok a b margin : exists r, array_nearly_equal a (length a) b (length b) margin = Some r /\
  (r = true <-> Forall2 (fun x y => Qabs (x - y) < margin)%Q a b).
Proof.
  unfold array_nearly_equal. destruct (Nat.eqb_spec (length a) (length b)) as [L|L]; cbn [negb].
  - destruct (nearly_loop_ok a b margin (length a) 0) as (r & E & H); try lia. exists r. split; [exact E|]. rewrite H. clear -L. revert b L. induction a as [|x a IH]; intros [|y b] L; try discriminate.
    + split; [constructor|]. intros _ j u v J. cbn in J. lia.
    + injection L as L. specialize (IH b L). split.
      * intro H. constructor; [apply (H 0 x y); cbn; auto; lia|]. apply IH. intros j u v J U V. apply (H (S j) u v); cbn; auto. lia.
      * intros F [|j] u v J U V; cbn in U, V; inversion F; subst. { congruence. } apply (proj2 IH ltac:(assumption) j); auto. cbn in J. lia.
  - exists false. split; [reflexivity|]. split; [discriminate|]. intro F. exfalso. apply L. clear L. induction F; cbn; auto.
Qed.

(** ** directories *)
Lemma path_eqb_refl p : path_eqb p p = true.
Proof. unfold path_eqb. destruct (begins p); cbn [andb]; destruct (list_eq_dec Nat.eq_dec (components p) (components p)); congruence. Qed.
Lemma path_eqb_eq p q : path_eqb p q = true -> p = q.
Proof.
  destruct p as [b c], q as [b' c']. unfold path_eqb. cbn [begins components]. destruct b, b'; cbn [andb]; try discriminate; destruct (list_eq_dec Nat.eq_dec c c'); try discriminate; intros _; congruence.
Qed.
Section D.
Variables (others : nat -> path -> bool) (permitted : path -> bool).
Notation file_exists := (file_exists others). Notation mkdir := (mkdir others permitted). Notation ensure := (ensure others permitted).
Lemma exists_keeps p w e w' : file_exists p w = (e, w') -> keeps w w' /\ e = present w' p /\ (e = true -> errno w' = errno w) /\ (e = false -> errno w' = ENOENT).
Proof.
  unfold UtilModel.file_exists. destruct (present (pass others w) p) eqn:E; intro H; injection H as <- <-; (split; [intros q Q; cbn; now rewrite Q|]); cbn [present errno pass] in *; rewrite ?E; splits; auto; discriminate.
Qed.
Lemma mkdir_keeps p w r w' : mkdir p w = (r, w') -> keeps w w' /\ (r = true -> present w' p = true /\ errno w' = errno w).
Proof.
  unfold UtilModel.mkdir. cbn zeta.
  destruct (present (pass others w) p); [|destruct (negb (present (pass others w) (parent p))); [|destruct (negb (permitted p))]]; intro H; injection H as <- <-;
  (split; [intros q Q; cbn; rewrite Q; auto using orb_true_r|]); try discriminate. intros _. cbn [present errno pass]. rewrite path_eqb_refl. auto.
Qed.
Lemma keeps_trans a b c : keeps a b -> keeps b c -> keeps a c. Proof. unfold keeps. auto. Qed.

Lemma ensure_result b c : forall w r w', ensure b c w = Some (r, w') ->
  keeps w w' /\ (r = true -> present w' (mkpath b c) = true /\ (errno w = ENOENT -> errno w' = ENOENT)).
Proof.
  induction c as [|n c IH]; intros w r w' E; cbn [UtilModel.ensure] in E.
  - destruct (file_exists (mkpath b []) w) as [e w1] eqn:E1. destruct (exists_keeps _ _ _ _ E1) as (K & P & T & _). destruct e; [|discriminate]. injection E as <- <-. split; auto. intros _. split; auto. intro. now rewrite T.
  - destruct (file_exists (mkpath b (n :: c)) w) as [e w1] eqn:E1. destruct (exists_keeps _ _ _ _ E1) as (K & P & T & F). destruct e.
    { injection E as <- <-. split; auto. intros _. split; auto. intro. now rewrite T. }
    specialize (F eq_refl). destruct (ensure b c w1) as [[s w2]|] eqn:E2; [|discriminate]. cbn [bind] in E. destruct (IH _ _ _ E2) as [K2 S2].
    destruct (need _); [|discriminate]. cbn [bind] in E. destruct s.
    + destruct (S2 eq_refl) as [_ N]. specialize (N F). rewrite N in E. change (ENOENT =? EEXIST)%Z with false in E. cbv iota in E. injection E as E.
      destruct (mkdir_keeps _ _ _ _ E) as [K3 S3]. split; [eauto using keeps_trans|]. intro Hr. destruct (S3 Hr) as [S4 S5]. split; auto. intros _. congruence.
    + injection E as <- <-. split; [eauto using keeps_trans|discriminate].
Qed.
Lemma ensure_defined b c : b <> Relative -> forall w, present w (mkpath b []) = true -> exists r w', ensure b c w = Some (r, w').
Proof.
  intro B. induction c as [|n c IH]; intros w H; cbn [UtilModel.ensure].
  - destruct (file_exists (mkpath b []) w) as [e w1] eqn:E1. destruct (exists_keeps _ _ _ _ E1) as (K & P & _). rewrite (K _ H) in P. subst e. eauto.
  - destruct (file_exists (mkpath b (n :: c)) w) as [e w1] eqn:E1. destruct (exists_keeps _ _ _ _ E1) as (K & P & T & F). destruct e; [eauto|].
    destruct (IH w1 (K _ H)) as (r & w2 & E2). rewrite E2. cbn [bind]. replace (match b with Relative => match c with [] => false | _ => true end | _ => true end) with true by (destruct b; congruence).
    cbn [need bind]. destruct r; [|eauto]. destruct (errno w2 =? EEXIST)%Z; [eauto|]. destruct (mkdir _ w2); eauto.
Qed.
Lemma ensure_relative c : alone others -> c <> [] -> forall w, (forall n, n < length c -> present w (mkpath Relative (skipn n c)) = false) -> ensure Relative c w = None.
Proof.
  intros AL. induction c as [|n c IH]; intros NE w H; [congruence|]. cbn [UtilModel.ensure]. unfold UtilModel.file_exists. cbn [present pass].
  assert (H0 := H 0 ltac:(cbn; lia)). cbn [skipn] in H0. rewrite H0, AL. cbn [orb]. destruct c as [|k c].
  - match goal with |- bind ?m _ = _ => destruct m as [[s w2]|]; reflexivity end.
  - rewrite IH; [reflexivity|discriminate|]. intros j Hj. cbn [present pass]. rewrite AL, orb_false_r. apply (H (S j)). cbn in *. lia.
Qed.
Lemma ensure_race b n w : b <> Relative -> present w (mkpath b []) = true -> present w (mkpath b [n]) = false ->
  (forall t, others t (mkpath b [n]) = (t =? time w + 2)) -> exists w', ensure b [n] w = Some (false, w') /\ present w' (mkpath b [n]) = true.
Proof.
  intros B H N O. cbn [UtilModel.ensure]. unfold UtilModel.file_exists at 1, pass at 1. cbn [present]. rewrite N, O. destruct (Nat.eqb_spec (time w) (time w + 2)) as [X|_]; [lia|]. cbn [orb].
  unfold UtilModel.file_exists, pass. cbn [present time errno]. rewrite H. cbn [orb bind]. replace (match b with Relative => false | _ => true end) with true by (destruct b; congruence). cbn [need bind errno].
  unfold pass. cbn [present time errno]. change (ENOENT =? EEXIST)%Z with false. cbv iota. unfold UtilModel.mkdir, pass. cbn [present time errno].
  rewrite !O. replace (S (S (time w)) =? time w + 2) with true by (symmetry; apply Nat.eqb_eq; lia). rewrite !orb_true_r.
  eexists. split; [reflexivity|]. cbn [present]. rewrite !O. replace (S (S (time w)) =? time w + 2) with true by (symmetry; apply Nat.eqb_eq; lia). apply orb_true_r.
Qed.
Lemma ensure_alone b c : alone others -> (forall p, permitted p = true) -> b <> Relative -> forall w, present w (mkpath b []) = true ->
  exists w', ensure b c w = Some (true, w') /\ forall q, present w' q = true -> present w q = true \/ leads_to q (mkpath b c).
Proof.
  intros AL PM B. induction c as [|n c IH]; intros w H; cbn [UtilModel.ensure]; unfold UtilModel.file_exists; cbn [present pass].
  - rewrite H. cbn [orb]. eexists. split; [reflexivity|]. cbn [present pass]. intros q Q. left. rewrite AL, orb_false_r in Q. exact Q.
  - rewrite AL, orb_false_r. destruct (present w (mkpath b (n :: c))) eqn:EP.
    { eexists. split; [reflexivity|]. cbn [present pass]. intros q Q. left. rewrite AL, orb_false_r in Q. exact Q. }
    cbn [time errno]. match goal with |- context [ensure b c ?w1] => destruct (IH w1) as (w2 & E2 & Q2) end; [cbn [present]; now rewrite H|].
    rewrite E2. cbn [bind]. replace (match b with Relative => match c with [] => false | _ => true end | _ => true end) with true by (destruct b; congruence). cbn [need bind].
    destruct (ensure_result _ _ _ _ _ E2) as [K2 S2]. destruct (S2 eq_refl) as [S3 S4]. specialize (S4 eq_refl). rewrite S4. change (ENOENT =? EEXIST)%Z with false. cbv iota.
    assert (ABS : present w2 (mkpath b (n :: c)) = false).
    { destruct (present w2 (mkpath b (n :: c))) eqn:X; auto. destruct (Q2 _ X) as [Y|(j & Hj & Y)].
      - cbn [present] in Y. rewrite AL, orb_false_r in Y. congruence.
      - injection Y as Y. apply (f_equal (@length nat)) in Y. rewrite skipn_length in Y. cbn in *. lia. }
    unfold UtilModel.mkdir. cbn [present pass]. rewrite ABS, !AL. unfold parent. cbn [orb begins components tl]. rewrite S3. cbn [orb negb]. rewrite PM. cbn [negb].
    eexists. split; [reflexivity|]. cbn [present]. intros q Q. apply orb_true_iff in Q as [Q|Q].
    + apply path_eqb_eq in Q. right. exists 0. split; [lia|exact Q].
    + rewrite AL, orb_false_r in Q. destruct (Q2 _ Q) as [Y|(j & Hj & Y)].
      * left. cbn [present] in Y. rewrite AL, orb_false_r in Y. exact Y.
      * right. exists (S j). cbn [components length begins] in *. split; [lia|exact Y].
Qed.
End D.
