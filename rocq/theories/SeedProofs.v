From Coq Require Import Permutation.
From Verif Require Import Base RandModel SeedModel SeedSpec.

Lemma iter_shift {A} (f : A -> A) k x : Nat.iter k f (f x) = f (Nat.iter k f x).
Proof. induction k; simpl; congruence. Qed.
Lemma nth_noise_next r k : nth_noise (snd (random_u32 r)) k = nth_noise r (S k).
Proof. unfold nth_noise. rewrite (iter_shift (fun r => snd (random_u32 r)) k r). reflexivity. Qed.
Lemma run_app a b s : run (a ++ b) s = (s' <- run a s ;; run b s').
Proof. revert s. induction a as [|i a IH]; intros s; simpl; [reflexivity|]. destruct (step i s); simpl; auto. Qed.

Lemma draw_one s i : nth_error (events s) i = Some Waiting ->
  exists s', run [i; i] s = Some s' /\ global s' = snd (random_u32 (global s)) /\ length (events s') = length (events s) /\
    nth_error (events s') i = Some (Has (nth_noise (global s) 0)) /\ forall j, j <> i -> nth_error (events s') j = nth_error (events s) j.
Proof.
  intros H. cbn [run]. unfold step at 1, aget. rewrite H. cbn [bind]. assert (Hl := nth_error_lt _ _ _ H).
  destruct (aset_some (events s) i (Reading (global s)) Hl) as [l1 E1]. rewrite E1. cbn [bind].
  unfold step, aget. cbn [events global]. assert (G1 : forall j, nth_error l1 j = if j =? i then Some (Reading (global s)) else nth_error (events s) j) by (intros j; apply (aset_get _ _ _ _ j E1)).
  rewrite (G1 i), Nat.eqb_refl. cbn [bind]. destruct (random_u32 (global s)) as [seed r] eqn:Er. assert (Hl1 := aset_length _ _ _ _ E1).
  destruct (aset_some l1 i (Has (sp_random_state_new seed)) ltac:(lia)) as [l2 E2]. rewrite E2. cbn [bind].
  assert (G2 : forall j, nth_error l2 j = if j =? i then Some (Has (sp_random_state_new seed)) else nth_error l1 j) by (intros j; apply (aset_get _ _ _ _ j E2)).
  eexists. split; [reflexivity|]. cbn [global events snd]. splits; auto.
  - rewrite (aset_length _ _ _ _ E2). exact Hl1.
  - rewrite G2, Nat.eqb_refl. unfold nth_noise. simpl. rewrite Er. reflexivity.
  - intros j Hj. apply Nat.eqb_neq in Hj. rewrite G2, Hj, G1, Hj. reflexivity.
Qed.
Lemma draw_all order : NoDup order -> forall s, (forall i, In i order -> nth_error (events s) i = Some Waiting) ->
  exists s', run (one_by_one order) s = Some s' /\ global s' = Nat.iter (length order) (fun r => snd (random_u32 r)) (global s) /\
    (forall k i, nth_error order k = Some i -> nth_error (events s') i = Some (Has (nth_noise (global s) k))) /\
    (forall j, ~ In j order -> nth_error (events s') j = nth_error (events s) j).
Proof.
  induction 1 as [|i order Hni _ IH]; intros s Hw.
  - exists s. splits; auto. intros [|k] i H; discriminate.
  - destruct (draw_one s i (Hw i (or_introl eq_refl))) as (s1 & H1 & H2 & H3 & H4 & H5).
    destruct (IH s1) as (s2 & E1 & E2 & E3 & E4).
    { intros j Hj. rewrite H5 by (intros ->; contradiction). apply Hw. right. exact Hj. }
    exists s2. splits.
    + change (one_by_one (i :: order)) with ([i; i] ++ one_by_one order). rewrite run_app, H1. exact E1.
    + rewrite E2, H2. simpl. apply (iter_shift (fun r => snd (random_u32 r))).
    + intros [|k] j Hj; simpl in Hj.
      * injection Hj as <-. rewrite E4 by exact Hni. exact H4.
      * rewrite (E3 k j Hj), H2. rewrite nth_noise_next. reflexivity.
    + intros j Hj. simpl in Hj. rewrite E4 by tauto. apply H5. intros ->. tauto.
Qed.
Lemma waiting_start r n i : i < n -> nth_error (events (start r n)) i = Some Waiting.
Proof. intros H. simpl. rewrite nth_error_repeat by exact H. reflexivity. Qed.
Lemma in_turn n order r : Permutation order (seq 0 n) -> exists s, run (one_by_one order) (start r n) = Some s /\
  global s = Nat.iter n (fun r => snd (random_u32 r)) r /\ forall k i, nth_error order k = Some i -> nth_error (events s) i = Some (Has (nth_noise r k)).
Proof.
  intros Hp. destruct (draw_all order) with (s := start r n) as (s & H1 & H2 & H3 & _).
  - apply (Permutation_NoDup (Permutation_sym Hp)). apply seq_NoDup.
  - intros i Hi. apply waiting_start. apply (Permutation_in _ Hp) in Hi. apply in_seq in Hi. lia.
  - exists s. splits; auto. rewrite H2. apply Permutation_length in Hp. rewrite seq_length in Hp. rewrite Hp. reflexivity.
Qed.
Lemma list_order n r : exists s, run (one_by_one (seq 0 n)) (start r n) = Some s /\ all_have n (nth_noise r) s.
Proof.
  destruct (in_turn n (seq 0 n) r (Permutation_refl _)) as (s & H1 & _ & H3). exists s. split; [exact H1|]. intros i Hi. apply H3.
  rewrite (nth_error_nth' _ 0) by (rewrite seq_length; exact Hi). rewrite seq_nth by exact Hi. reflexivity.
Qed.

(** all read before the first writes *)
Lemma read_all r : forall l k es, length es = k -> run (seq k (length l)) (mkstate r (es ++ repeat Waiting (length l))) = Some (mkstate r (es ++ repeat (Reading r) (@length nat l))).
Proof.
  induction l as [|x l IH]; intros k es Hk; [reflexivity|]. cbn [length seq run repeat].
  assert (Hn : forall (x : noise) t, nth_error (es ++ x :: t) k = Some x) by (intros; rewrite nth_error_app2, Hk, Nat.sub_diag by lia; reflexivity).
  assert (Hs : forall (x y : noise) t, aset (es ++ x :: t) k y = Some (es ++ y :: t)).
  { clear - Hk. intros. revert k Hk. induction es as [|e es IH]; intros k Hk; simpl in *; subst k; [reflexivity|]. simpl. rewrite (IH (length es) eq_refl). reflexivity. } 
  unfold step, aget. cbn [events global]. rewrite Hn. cbn [bind]. rewrite Hs. cbn [bind].
  assert (E := IH (S k) (es ++ [Reading r])). rewrite <- !app_assoc in E. apply E. rewrite app_length. simpl. lia.
Qed.
Lemma write_all r : forall l k es g, length es = k -> exists g', run (seq k (length l)) (mkstate g (es ++ repeat (Reading r) (@length nat l))) = Some (mkstate g' (es ++ repeat (Has (nth_noise r 0)) (length l))).
Proof.
  induction l as [|x l IH]; intros k es g Hk; [exists g; reflexivity|]. cbn [length seq run repeat].
  assert (Hn : forall (x : noise) t, nth_error (es ++ x :: t) k = Some x) by (intros; rewrite nth_error_app2, Hk, Nat.sub_diag by lia; reflexivity).
  assert (Hs : forall (x y : noise) t, aset (es ++ x :: t) k y = Some (es ++ y :: t)).
  { clear - Hk. intros. revert k Hk. induction es as [|e es IH]; intros k Hk; simpl in *; subst k; [reflexivity|]. simpl. rewrite (IH (length es) eq_refl). reflexivity. }
  unfold step, aget. cbn [events global]. rewrite Hn. cbn [bind]. destruct (random_u32 r) as [seed r'] eqn:Er. rewrite Hs. cbn [bind].
  destruct (IH (S k) (es ++ [Has (nth_noise r 0)]) r') as [g' E]; [rewrite app_length; simpl; lia|]. exists g'. rewrite <- !app_assoc in E.
  assert (Hr : nth_noise r 0 = sp_random_state_new seed) by (unfold nth_noise; simpl; rewrite Er; reflexivity). rewrite <- Hr. exact E.
Qed.
Lemma all_equal n r : exists schedule s, Permutation schedule (seq 0 n ++ seq 0 n) /\ run schedule (start r n) = Some s /\ all_have n (fun _ => nth_noise r 0) s.
Proof.
  exists (seq 0 n ++ seq 0 n). assert (H1 := read_all r (seq 0 n) 0 [] eq_refl). destruct (write_all r (seq 0 n) 0 [] r eq_refl) as [g H2]. rewrite seq_length in H1, H2. simpl in H1, H2.
  eexists. splits; [apply Permutation_refl|rewrite run_app; unfold start; rewrite H1; exact H2|]. intros i Hi. simpl. apply nth_error_repeat. exact Hi.
Qed.

(** any schedule *)
Definition has (e : noise) : bool := match e with Has _ => true | _ => false end.
Definition count (l : list noise) : nat := length (filter has l).
Lemma count_aset l : forall i l' e v, aset l i v = Some l' -> nth_error l i = Some e -> has e = false -> count l' = count l + (if has v then 1 else 0).
Proof.
  unfold count. induction l as [|x l IH]; intros i l' e v H Hn He; [destruct i; discriminate|]. destruct i as [|i]; cbn in H.
  - injection H as <-. cbn in Hn. injection Hn as ->. cbn [filter]. rewrite He. destruct (has v); cbn [length]; lia.
  - destruct (aset l i v) as [t|] eqn:Et; cbn in H; [|discriminate]. injection H as <-. cbn [filter]. specialize (IH i t e v Et Hn He). destruct (has x); cbn [length]; lia.
Qed.
Lemma count_less l : forall i e, nth_error l i = Some e -> has e = false -> count l < length l.
Proof.
  unfold count. induction l as [|x l IH]; intros i e Hn He; [destruct i; discriminate|]. destruct i as [|i]; cbn in Hn; cbn [filter length].
  - injection Hn as ->. rewrite He. assert (length (filter has l) <= length l) by (clear; induction l as [|a l IH]; cbn; [lia|]; destruct (has a); cbn; lia). lia.
  - specialize (IH i e Hn He). destruct (has x); cbn [length]; lia.
Qed.
Notation drawn r k := (Nat.iter k (fun r => snd (random_u32 r)) r).
Definition inv (n : nat) (r : rstate) (s : state) : Prop :=
  length (events s) = n /\ (exists g, g <= count (events s) /\ global s = drawn r g) /\
  (forall i x, nth_error (events s) i = Some (Reading x) -> exists k, k <= count (events s) /\ x = drawn r k) /\
  (forall i x, nth_error (events s) i = Some (Has x) -> exists k, k < n /\ x = nth_noise r k).
Lemma step_inv n r i s s' : inv n r s -> step i s = Some s' -> inv n r s' /\ forall j x, nth_error (events s) j = Some (Has x) -> nth_error (events s') j = Some (Has x).
Proof.
  intros (Hl & (g & Hg & Eg) & Hr & Hh) E. unfold step, aget in E. destruct (nth_error (events s) i) as [e|] eqn:Ei; cbn [bind] in E; [|discriminate]. destruct e as [|x|x].
  - destruct (aset (events s) i (Reading (global s))) as [l|] eqn:El; cbn [bind] in E; [|discriminate]. injection E as <-. unfold inv. cbn [events global].
    pose proof (count_aset _ _ _ _ _ El Ei eq_refl) as Hc. cbn [has] in Hc. rewrite Hc, Nat.add_0_r. pose proof (fun j => aset_get _ _ _ _ j El) as G. splits.
    + rewrite (aset_length _ _ _ _ El). exact Hl.
    + exists g. auto.
    + intros j y. rewrite G. destruct (Nat.eqb_spec j i); [|apply Hr]. intros H. injection H as <-. exists g. auto.
    + intros j y. rewrite G. destruct (Nat.eqb_spec j i); [discriminate|apply Hh].
    + intros j y Hj. rewrite G. destruct (Nat.eqb_spec j i) as [->|]; [congruence|exact Hj].
  - destruct (random_u32 x) as [seed r'] eqn:Ex. destruct (aset (events s) i (Has (sp_random_state_new seed))) as [l|] eqn:El; cbn [bind] in E; [|discriminate]. injection E as <-. unfold inv. cbn [events global].
    pose proof (count_aset _ _ _ _ _ El Ei eq_refl) as Hc. cbn [has] in Hc. rewrite Hc. pose proof (fun j => aset_get _ _ _ _ j El) as G. destruct (Hr i x Ei) as (k & Hk & Ek).
    pose proof (count_less _ _ _ Ei eq_refl) as Hlt. splits.
    + rewrite (aset_length _ _ _ _ El). exact Hl.
    + exists (S k). split; [lia|]. cbn [Nat.iter nat_rect]. change (nat_rect _ r _ k) with (drawn r k). rewrite <- Ek, Ex. reflexivity.
    + intros j y. rewrite G. destruct (Nat.eqb_spec j i); [discriminate|]. intros H. destruct (Hr j y H) as (m & Hm & Em). exists m. split; [lia|exact Em].
    + intros j y. rewrite G. destruct (Nat.eqb_spec j i); [|apply Hh]. intros H. injection H as <-. exists k. split; [lia|]. unfold nth_noise. rewrite <- Ek, Ex. reflexivity.
    + intros j y Hj. rewrite G. destruct (Nat.eqb_spec j i) as [->|]; [congruence|exact Hj].
  - injection E as <-. split; [|auto]. unfold inv. splits; eauto.
Qed.
Lemma run_inv n r sch : forall s s', inv n r s -> run sch s = Some s' -> inv n r s' /\ forall j x, nth_error (events s) j = Some (Has x) -> nth_error (events s') j = Some (Has x).
Proof.
  induction sch as [|i sch IH]; intros s s' Hi E; cbn [run] in E; [injection E as <-; auto|]. destruct (step i s) as [s1|] eqn:E1; cbn [bind] in E; [|discriminate].
  destruct (step_inv _ _ _ _ _ Hi E1) as [H1 H2]. destruct (IH s1 s' H1 E) as [H3 H4]. auto.
Qed.
Lemma start_inv n r : inv n r (start r n).
Proof.
  unfold inv, start. cbn [events global]. assert (H : forall i e, nth_error (repeat Waiting n) i = Some e -> e = Waiting) by (intros i e H; apply nth_error_In in H; apply repeat_spec in H; exact H). splits.
  - apply repeat_length.
  - exists 0. split; [lia|reflexivity].
  - intros i x E. apply H in E. discriminate.
  - intros i x E. apply H in E. discriminate.
Qed.
Lemma any_schedule n r sch s : run sch (start r n) = Some s -> forall i x, nth_error (events s) i = Some (Has x) ->
  (exists k, k < n /\ x = nth_noise r k) /\ forall more s', run more s = Some s' -> nth_error (events s') i = Some (Has x).
Proof.
  intros E i x Hi. destruct (run_inv n r sch _ _ (start_inv n r) E) as [H _]. split; [apply H with i; exact Hi|]. intros more s' E'. apply (run_inv n r more _ _ H E'). exact Hi.
Qed.
