(** sp_seq on the heap implements [seq_list]. *)
From Verif Require Import Base SeqModel SeqSpec SeqListProofs.
From Coq Require Import Permutation.

Section Proofs.
Variables (F D : Type).
Notation event := (event D).
Notation heap := (heap D).
Notation nodes := (nodes D).
Notation fresh := (fresh D).
Notation dll := (dll D).
Notation mk := (Build_node D).
Variable prepare : event -> option event.
Variable generate : nat -> nat -> list F -> event -> option (list F * event * bool).

Definition seq_post (h : heap) (l : list (nat * event)) (ok : bool) (out : list F) (l' : list event) (log : list (action D))
    (r : seq_result F D) : Prop :=
  sr_ok F D r = ok /\ sr_out F D r = out /\ sr_log F D r = log /\
  exists L, map snd L = l' /\ represents D (sr_heap F D r) (sr_head F D r) L /\ incl (addrs D L) (addrs D l) /\
    (forall q, In q (addrs D l) -> ~ In q (addrs D L) -> nodes (sr_heap F D r) q = None) /\
    (forall q, ~ In q (addrs D l) -> nodes (sr_heap F D r) q = nodes h q) /\ fresh (sr_heap F D r) = fresh h.

Lemma seq_fail_correct h0 L0 h head L out log :
  represents D h head L -> incl (addrs D L) (addrs D L0) ->
  (forall q, In q (addrs D L0) -> ~ In q (addrs D L) -> nodes h q = None) ->
  (forall q, ~ In q (addrs D L0) -> nodes h q = nodes h0 q) -> fresh h = fresh h0 ->
  exists r, seq_fail F D out head h log = Some r /\ seq_post h0 L0 false out [] (log ++ free_log D (map snd L)) r.
Proof.
  intros HR Hi Hg Hf Hfr. pose proof (represents_length _ _ _ _ HR) as HL. destruct HR as [H [Hnd HF]].
  destruct (free_correct D L (fuel D h) h head None H Hnd) as [h' [A [B C]]]; [unfold fuel; lia|].
  unfold seq_fail. rewrite A. cbn [bind]. eexists. split; [reflexivity|]. unfold seq_post. cbn. splits; auto.
  exists []. splits.
  - reflexivity.
  - unfold represents. splits; constructor.
  - intros q [].
  - intros q Hq _. rewrite C. destruct (in_dec Nat.eq_dec q (addrs D L)); auto.
  - intros q Hq. rewrite C. destruct (in_dec Nat.eq_dec q (addrs D L)); [elim Hq; auto|auto].
  - congruence.
Qed.

(** replacing the event of one node *)
Lemma represents_set_event h head K p e R e' :
  represents D h head (K ++ (p, e) :: R) ->
  exists h', set_event D h p e' = Some h' /\ represents D h' head (K ++ (p, e') :: R) /\ fresh h' = fresh h /\
    (forall q, q <> p -> nodes h' q = nodes h q) /\
    (exists x, nodes h p = Some x /\ n_event D x = e /\ exists y, nodes h' p = Some y /\ n_event D y = e' /\ n_next D y = n_next D x /\
      dll h' (Some p) R (n_next D y) None).
Proof.
  intros [H [Hnd Hf]]. pose proof H as H0. apply dll_app in H0 as [mid [H1 [-> [s [E H2]]]]].
  destruct (set_event_some D h p e' _ E) as [h' [A [B [N O]]]]. cbn in N. exists h'.
  assert (Hp : ~ In p (addrs D K) /\ ~ In p (addrs D R)).
  { rewrite map_app in Hnd. cbn in Hnd. apply NoDup_remove_2 in Hnd. rewrite in_app_iff in Hnd. tauto. }
  assert (HR : dll h' (Some p) R s None).
  { apply dll_frame with h; [|exact H2]. intros q Hq. apply O. intros ->. tauto. }
  splits; auto.
  - unfold represents. splits.
    + apply dll_app. exists (Some p). split.
      * apply dll_frame with h; [|exact H1]. intros q Hq. apply O. intros ->. tauto.
      * split; [reflexivity|]. exists s. auto.
    + rewrite map_app in *. exact Hnd.
    + rewrite B. rewrite Forall_app in *. destruct Hf as [Hf1 Hf2]. inversion Hf2; subst. split; auto.
  - eexists. splits; [exact E|reflexivity|]. eexists. splits; [exact N|reflexivity|reflexivity|exact HR].
Qed.

Lemma addrs_same_len (K : list (nat * event)) p e e' R : addrs D (K ++ (p, e) :: R) = addrs D (K ++ (p, e') :: R).
Proof. unfold addrs. now rewrite !map_app. Qed.

Lemma seq_loop_correct h0 L0 start end_ : forall R n out head h K cur log,
  represents D h head (K ++ R) -> dll h (last_addr D None K) R cur None -> length R < n ->
  incl (addrs D (K ++ R)) (addrs D L0) ->
  (forall q, In q (addrs D L0) -> ~ In q (addrs D (K ++ R)) -> nodes h q = None) ->
  (forall q, ~ In q (addrs D L0) -> nodes h q = nodes h0 q) -> fresh h = fresh h0 ->
  match seq_list F D prepare generate start end_ out (map snd K) (map snd R) log with
  | None => seq_loop F D prepare generate n start end_ out head cur h log = None
  | Some (ok, out', l', log') =>
    exists r, seq_loop F D prepare generate n start end_ out head cur h log = Some r /\ seq_post h0 L0 ok out' l' log' r
  end.
Proof.
  induction R as [|[p e] R IH]; intros n out head h K cur log HR Hd Hn Hi Hg Hf Hfr.
  - cbn in Hd. subst cur. rewrite app_nil_r in *. cbn [map seq_list]. destruct n; [cbn in Hn; lia|].
    eexists. split; [reflexivity|]. unfold seq_post. cbn. splits; auto. exists K. splits; auto.
  - destruct n; [cbn in Hn; lia|]. pose proof Hd as [-> [s [E Hs]]]. cbn [map snd seq_list seq_loop]. rewrite E. cbn [bind n_event n_next].
    destruct (Nat.leb_spec (ev_end D e) start) as [Hend|Hend].
    + destruct (remove_correct D h head K p e R HR) as [head' [h' [A [B [C [G O]]]]]]. rewrite A. cbn [bind].
      apply IH; auto.
      * destruct B as [B1 _]. apply dll_app in B1 as [mid [B2 B3]].
        assert (mid = s); [|subst; exact B3].
        destruct R as [|[q eq] R]; cbn in Hs, B3; [congruence|]. destruct Hs as [-> _], B3 as [-> _]. reflexivity.
      * cbn in Hn. lia.
      * intros q Hq. apply Hi. rewrite addrs_app in *. rewrite in_app_iff in *. destruct Hq; [now left|right; now right].
      * intros q Hq Hq'. destruct (Nat.eq_dec q p) as [->|Hne]; [exact G|].
        assert (Hq2 : ~ In q (addrs D (K ++ (p, e) :: R))).
        { intro X. apply Hq'. rewrite addrs_app, in_app_iff in *. destruct X as [|[X|]]; auto. cbn in X. congruence. }
        rewrite O by exact Hq2. auto.
      * intros q Hq. rewrite O; [auto|]. intro X. apply Hq, Hi, X.
      * congruence.
    + destruct (Nat.leb_spec end_ (ev_start D e)) as [Hst|Hst].
      { eexists. split; [reflexivity|]. unfold seq_post. cbn. splits; auto. exists (K ++ (p, e) :: R). splits; auto.
        now rewrite map_app. }
      set (PL := if ev_prepare D e then (option_map (prepared D) (prepare e), log ++ [APrepare D (ev_id D e)]) else (Some e, log)).
      destruct PL as [prep log1]. destruct prep as [e1|].
      2: { destruct (seq_fail_correct h0 L0 h head _ out log1 HR Hi Hg Hf Hfr) as [r [A B]]. exists r. split; [exact A|].
           rewrite map_app in B. exact B. }
      destruct (represents_set_event h head K p e R e1 HR) as [h1 [A1 [B1 [C1 [O1 _]]]]]. rewrite A1. cbn [bind].
      destruct (call_generate F D generate start end_ out e1) as [[[out2 e2] ok]|]; [|reflexivity]. cbn [bind].
      destruct (represents_set_event h1 head K p e1 R e2 B1) as [h2 [A2 [B2 [C2 [O2 [x [_ [_ [y [N2 [_ [_ Hd2]]]]]]]]]]]].
      rewrite A2. cbn [bind].
      assert (Hi2 : incl (addrs D (K ++ (p, e2) :: R)) (addrs D L0)) by (rewrite (addrs_same_len K p e2 e R); exact Hi).
      assert (Hp : In p (addrs D L0)) by (apply Hi; rewrite addrs_app, in_app_iff; right; now left).
      assert (Hp2 : In p (addrs D (K ++ (p, e2) :: R))) by (rewrite addrs_app, in_app_iff; right; now left).
      assert (Hg2 : forall q, In q (addrs D L0) -> ~ In q (addrs D (K ++ (p, e2) :: R)) -> nodes h2 q = None).
      { intros q Hq Hq'. assert (q <> p) by (intros ->; auto). rewrite O2, O1 by auto. apply Hg; auto.
        now rewrite (addrs_same_len K p e e2 R). }
      assert (Hf2 : forall q, ~ In q (addrs D L0) -> nodes h2 q = nodes h0 q).
      { intros q Hq. assert (q <> p) by (intros ->; auto). rewrite O2, O1 by auto. auto. }
      destruct ok.
      * rewrite N2. cbn [bind].
        replace (map snd K ++ [e2]) with (map snd (K ++ [(p, e2)])) by now rewrite map_app.
        apply IH; try rewrite <- app_assoc; auto; try congruence.
        -- rewrite last_addr_snoc. exact Hd2.
        -- cbn in Hn. lia.
      * destruct (seq_fail_correct h0 L0 h2 head _ out2
          (log1 ++ [AGenerate D (ev_id D e1) (if ev_start D e1 <? start then start - ev_start D e1 else 0)
                     (Nat.min end_ (ev_end D e1) - ev_start D e1)]) B2 Hi2 Hg2 Hf2 ltac:(congruence)) as [r [A B]].
        exists r. split; [exact A|]. rewrite map_app in B. exact B.
Qed.

Lemma seq_correct h head L start end_ out :
  represents D h head L ->
  match seq_list F D prepare generate start end_ out [] (map snd L) [] with
  | None => sp_seq F D prepare generate start end_ out head h = None
  | Some (ok, out', l', log') =>
    exists r, sp_seq F D prepare generate start end_ out head h = Some r /\ seq_post h L ok out' l' log' r
  end.
Proof.
  intro HR. pose proof (represents_length _ _ _ _ HR) as HL.
  apply (seq_loop_correct h L start end_ L (fuel D h) out head h [] head []); auto.
  - exact (proj1 HR).
  - unfold fuel. lia.
  - now intros q Hq.
  - intros q Hq Hn. contradiction.
Qed.
End Proofs.
