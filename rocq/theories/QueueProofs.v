From Verif Require Import Base QueueModel QueueSpec.

Fixpoint chain (h : heap) (l : list nat) : Prop := match l with [] => True | a :: r => h a = hd 0 r /\ chain h r end.
(** the queue holds the nodes [l] *)
Definition holds (q : queue) (h : heap) (l : list nat) : Prop :=
  qfirst q = hd 0 l /\ qlast q = last l 0 /\ chain h l /\ NoDup l /\ ~ In 0 l /\ qsize q = Z.of_nat (length l) /\ (Z.of_nat (length l) < two32)%Z.

Lemma holds_init h : holds queue_init h [].
Proof. unfold holds, queue_init, two32. cbn. splits; auto; try constructor; lia. Qed.
Lemma chain_ext h h' l : (forall a, In a l -> h' a = h a) -> chain h l -> chain h' l.
Proof. induction l as [|a l IH]; cbn [chain]; [auto|]. intros e [h1 h2]. split; [rewrite e by (left; reflexivity); exact h1|apply IH; auto]. intros b hb. apply e. right. exact hb. Qed.
Lemma last_in (l : list nat) : l <> [] -> In (last l 0) l.
Proof. intros h. destruct (exists_last h) as (r & a & ->). rewrite last_last. apply in_or_app. right. left. reflexivity. Qed.
Lemma chain_snoc h l n : ~ In n l -> NoDup l -> n <> 0 -> chain h l -> chain (put (if l then h else put h (last l 0) n) n 0) (l ++ [n]).
Proof.
  intros hn hd0 n0. induction l as [|a l IH]; intros hc; cbn [app chain].
  - unfold put. rewrite Nat.eqb_refl. cbn. auto.
  - destruct hc as [h1 h2]. inversion hd0 as [|? ? hd1 hd2]; subst. assert (a <> n) by (intros ->; apply hn; left; reflexivity). specialize (IH (fun i => hn (or_intror i)) hd2 h2).
    destruct l as [|b l].
    + cbn [app chain last hd] in *. unfold put. rewrite !Nat.eqb_refl. destruct (Nat.eqb_spec a n); [contradiction|]. auto.
    + cbn [hd app]. split.
      * unfold put. destruct (Nat.eqb_spec a n); [contradiction|]. destruct (Nat.eqb_spec a (last (a :: b :: l) 0)) as [e|]; [|exact h1].
        exfalso. apply hd1. rewrite e. change (last (a :: b :: l) 0) with (last (b :: l) 0). apply last_in. discriminate.
      * exact IH.
Qed.
Lemma enq_holds q h l n : holds q h l -> n <> 0 -> ~ In n l -> (Z.of_nat (S (length l)) < two32)%Z ->
  exists q' h', enq q h n = Some (q', h') /\ holds q' h' (l ++ [n]) /\ (forall a, ~ In a (n :: l) -> h' a = h a).
Proof.
  intros (h1 & h2 & h3 & h4 & h5 & h6 & h7) hn hi hs. unfold enq. pose proof (chain_snoc h l n hi h4 hn h3) as hc.
  assert (hn' : (n =? 0) = false) by (apply Nat.eqb_neq; exact hn).
  assert (hfin : forall first h', first = hd 0 (l ++ [n]) -> chain (put h' n 0) (l ++ [n]) -> (forall a, ~ In a (n :: l) -> h' a = h a) ->
    exists q' h2, Some (mkqueue (u32 (1 + qsize q)) first n, put h' n 0) = Some (q', h2) /\ holds q' h2 (l ++ [n]) /\ (forall a, ~ In a (n :: l) -> h2 a = h a)).
  { intros first h' e hc' ho. do 2 eexists. split; [reflexivity|]. split.
    - unfold holds. cbn [qfirst qlast qsize]. rewrite last_last, app_length. cbn [length]. splits; auto; try lia.
      + apply NoDup_rev in h4. rewrite <- (rev_involutive (l ++ [n])). apply NoDup_rev. rewrite rev_app_distr. cbn [rev app]. constructor; [rewrite <- in_rev; exact hi|exact h4].
      + rewrite in_app_iff. cbn. intros [?|[?|[]]]; auto.
      + rewrite h6, u32_small by lia. lia.
    - intros a ha. unfold put. destruct (Nat.eqb_spec a n) as [->|]; [exfalso; apply ha; left; reflexivity|]. apply ho. exact ha. }
  destruct l as [|b l].
  - rewrite h1. cbn [hd]. rewrite Nat.eqb_refl. cbn [negb bind]. unfold need. rewrite hn'. cbn [negb bind]. apply hfin; auto.
  - rewrite h1. cbn [hd]. rewrite (proj2 (Nat.eqb_neq b 0)) by (intros ->; apply h5; left; reflexivity). cbn [negb]. unfold need.
    assert (hl : In (qlast q) (b :: l)) by (rewrite h2; apply last_in; discriminate).
    rewrite (proj2 (Nat.eqb_neq (qlast q) 0)) by (intros e; rewrite e in hl; auto). cbn [negb bind]. rewrite hn'. cbn [negb bind]. apply hfin; [reflexivity|rewrite h2; exact hc|].
    intros a ha. unfold put. destruct (Nat.eqb_spec a (qlast q)) as [->|]; [|reflexivity]. exfalso. apply ha. right. exact hl.
Qed.
Lemma deq_holds q h n l : holds q h (n :: l) -> exists q', deq q h = Some (n, q') /\ holds q' h l.
Proof.
  intros (h1 & h2 & [h3 h3'] & h4 & h5 & h6 & h7). unfold deq. rewrite h1. cbn [hd]. unfold need. rewrite (proj2 (Nat.eqb_neq n 0)) by (intros ->; apply h5; left; reflexivity). cbn [negb bind].
  eexists. split; [reflexivity|]. unfold holds. cbn [qfirst qlast qsize]. inversion h4; subst. splits; auto.
  - rewrite h3. destruct l as [|b l]; [reflexivity|]. cbn [hd]. rewrite (proj2 (Nat.eqb_neq b 0)) by (intros ->; apply h5; right; left; reflexivity). rewrite h2. reflexivity.
  - intros hi. apply h5. right. exact hi.
  - rewrite h6. cbn [length]. rewrite u32_small by (cbn [length] in h7; lia). lia.
  - cbn [length] in h7. lia.
Qed.
Lemma run_fifo ops l out l' out' : fifo ops l out l' out' -> forall q h, holds q h l ->
  exists q' h', run ops q h out = Some (out', q', h') /\ holds q' h' l'.
Proof.
  induction 1 as [l out|ops l out l' out' _ IH|n ops l out l' out' h1 h2 h3 _ IH|n ops l out l' out' _ IH]; intros q h hq; cbn [run].
  - eauto.
  - apply IH. apply holds_init.
  - destruct (enq_holds q h l n hq h1 h2 h3) as (q' & h' & e & hq' & _). rewrite e. cbn [bind]. apply IH. exact hq'.
  - destruct (deq_holds q h n l hq) as (q' & e & hq'). rewrite e. cbn [bind]. apply IH. exact hq'.
Qed.
Lemma queue_fifo ops l out h : fifo ops [] [] l out ->
  exists q h', run ops queue_init h [] = Some (out, q, h') /\ qsize q = Z.of_nat (length l) /\ (qfirst q = 0 <-> l = []) /\
    exists q2, run (repeat Deq (length l)) q h' [] = Some (l, q2, h') /\ qsize q2 = 0%Z.
Proof.
  intros hf. destruct (run_fifo _ _ _ _ _ hf queue_init h (holds_init h)) as (q & h' & e & hq). exists q, h'. split; [exact e|]. pose proof hq as (h1 & _ & _ & _ & h5 & h6 & _).
  split; [exact h6|]. split; [rewrite h1; destruct l as [|a l]; cbn [hd]; split; auto; try discriminate; intros ->; exfalso; apply h5; left; reflexivity|].
  assert (hr : forall l q out, holds q h' l -> exists q2, run (repeat Deq (length l)) q h' out = Some (out ++ l, q2, h') /\ qsize q2 = 0%Z).
  { clear. induction l as [|a l IH]; intros q out hq; cbn [length repeat run].
    - exists q. rewrite app_nil_r. split; [reflexivity|apply hq].
    - destruct (deq_holds q h' a l hq) as (q' & e & hq'). rewrite e. cbn [bind]. destruct (IH q' (out ++ [a]) hq') as (q2 & e2 & h2). exists q2. rewrite e2. split; [|exact h2]. rewrite <- app_assoc. reflexivity. }
  exact (hr l q [] hq).
Qed.
Lemma fifo_order ops l out l' out' : fifo ops l out l' out' -> Forall (fun o => o <> Init) ops -> out' ++ l' = out ++ l ++ enqueued_nodes ops.
Proof.
  induction 1 as [l out|ops l out l' out' _ IH|n ops l out l' out' h1 h2 h3 _ IH|n ops l out l' out' _ IH]; intros hf; cbn [enqueued_nodes].
  - rewrite app_nil_r. reflexivity.
  - exfalso. apply Forall_inv in hf. apply hf. reflexivity.
  - apply Forall_inv_tail in hf. rewrite (IH hf), <- !app_assoc. reflexivity.
  - apply Forall_inv_tail in hf. rewrite (IH hf), <- !app_assoc. reflexivity.
Qed.
Lemma queue_order ops l out h : fifo ops [] [] l out -> Forall (fun o => o <> Init) ops ->
  exists q h', run ops queue_init h [] = Some (out, q, h') /\ out ++ l = enqueued_nodes ops.
Proof.
  intros hf hi. destruct (run_fifo _ _ _ _ _ hf queue_init h (holds_init h)) as (q & h' & e & _). exists q, h'. split; [exact e|]. exact (fifo_order _ _ _ _ _ hf hi).
Qed.
Lemma queue_other_nodes ops : forall l out l' out' q h, fifo ops l out l' out' -> holds q h l ->
  forall q' h' a, run ops q h out = Some (out', q', h') -> ~ In a l -> ~ In a (enqueued_nodes ops) -> h' a = h a.
Proof.
  intros l out l' out' q h hf. revert q h. induction hf as [l out|ops l out l' out' _ IH|n ops l out l' out' h1 h2 h3 _ IH|n ops l out l' out' _ IH]; intros q h hq q' h' a e ha hb; cbn [run] in e.
  - congruence.
  - apply (IH _ _ (holds_init h) q' h' a e); auto.
  - destruct (enq_holds q h l n hq h1 h2 h3) as (q1 & h1' & e1 & hq' & ho). rewrite e1 in e. cbn [bind] in e. cbn [enqueued_nodes] in hb. rewrite (IH q1 h1' hq' q' h' a e).
    + apply ho. intros [->|?]; [apply hb; left; reflexivity|contradiction].
    + rewrite in_app_iff. intros [?|[->|[]]]; [contradiction|apply hb; left; reflexivity].
    + intros hc. apply hb. right. exact hc.
  - destruct (deq_holds q h n l hq) as (q1 & e1 & hq'). rewrite e1 in e. cbn [bind] in e. apply (IH q1 h hq' q' h' a e); auto. intros hc. apply ha. right. exact hc.
Qed.
