(** The steps of the thread pool as a relation. *)
From Verif Require Import Base QueueModel PoolModel.

Section Pool.
Variables M X : Type.
Variable prepare : nat -> X -> M -> M.
Variable code : list (nat -> M -> M).
Notation pool := (pool M).
Notation event := (event X).
Notation mkp := (mkpool M).
Notation outcome := (outcome M).
Notation Next := (Next M).
Notation Undefined := (Undefined M).
Notation Blocked := (Blocked M).
Notation step := (step M X prepare code).

Inductive trans : event -> pool -> pool -> Prop :=
  | T_enqueue q h k o d z w c f nw m tr t x : t <> 0 -> in_use M (mkp q h k o d z w c f nw m tr) t = false ->
      (qsize q + Z.of_nat (length c + length w) + 2 < two32)%Z ->
      trans (Enqueue X t x) (mkp q h k o d z w c f nw m tr) (mkp q h (fun a => if a =? t then false else k a) o d z w (c ++ [(t, CLock)]) f nw (prepare t x m) tr)
  | T_spurious q h k o d z w1 w2 c f nw m tr :
      trans (Spurious X (length w1)) (mkp q h k o d z (w1 ++ WWait :: w2) c f nw m tr) (mkp q h k o d z (w1 ++ WWake :: w2) c f nw m tr)
  | T_finish q h k o d z w c f nw m tr nw' dc : f = FIdle \/ (exists r, f = FReturned r) -> (qsize q + Z.of_nat (length c + length w) + 1 < two32)%Z ->
      trans (Finish X nw' dc) (mkp q h k o d z w c f nw m tr) (mkp q h k o d z w c (if dc then FDiscardLock else FMalloc 0 z) nw' m (tr ++ [OFinish]))
  | T_wlock q h k z w1 pc w2 c f nw m tr : pc = WLock \/ pc = WWake ->
      trans (Work X (length w1)) (mkp q h k None false z (w1 ++ pc :: w2) c f nw m tr) (mkp q h k (Some (AW (length w1))) false z (w1 ++ WCheck :: w2) c f nw m tr)
  | T_wwait q h k o z w1 w2 c f nw m tr : qsize q = 0%Z ->
      trans (Work X (length w1)) (mkp q h k o false z (w1 ++ WCheck :: w2) c f nw m tr) (mkp q h k None false z (w1 ++ WWait :: w2) c f nw m tr)
  | T_wtake q h k o d z w1 w2 c f nw m tr t q' : qsize q <> 0%Z -> deq q h = Some (t, q') ->
      trans (Work X (length w1)) (mkp q h k o d z (w1 ++ WCheck :: w2) c f nw m tr) (mkp q' h k o d z (w1 ++ WUnlock t :: w2) c f nw m (tr ++ [ODequeued t (k t)]))
  | T_wunlock q h k o d z w1 w2 c f nw m tr t :
      trans (Work X (length w1)) (mkp q h k o d z (w1 ++ WUnlock t :: w2) c f nw m tr) (mkp q h k None d z (w1 ++ WCall t :: w2) c f nw m tr)
  | T_wexit q h k o d z w1 w2 c f nw m tr t : k t = true ->
      trans (Work X (length w1)) (mkp q h k o d z (w1 ++ WCall t :: w2) c f nw m tr) (mkp q h k o d z (w1 ++ WExited :: w2) c f nw m (tr ++ [OExit (length w1) t]))
  | T_wstart q h k o d z w1 w2 c f nw m tr t : k t = false ->
      trans (Work X (length w1)) (mkp q h k o d z (w1 ++ WCall t :: w2) c f nw m tr) (mkp q h k o d z (w1 ++ WRun t 0 :: w2) c f nw m (tr ++ [OStart (length w1) t]))
  | T_wrun q h k o d z w1 w2 c f nw m tr t j g : nth_error code j = Some g ->
      trans (Work X (length w1)) (mkp q h k o d z (w1 ++ WRun t j :: w2) c f nw m tr) (mkp q h k o d z (w1 ++ WRun t (S j) :: w2) c f nw (g t m) tr)
  | T_wdone q h k o d z w1 w2 c f nw m tr t j : nth_error code j = None ->
      trans (Work X (length w1)) (mkp q h k o d z (w1 ++ WRun t j :: w2) c f nw m tr) (mkp q h k o d z (w1 ++ WLock :: w2) c f nw m (tr ++ [ODone (length w1) t]))
  | T_clock q h k z w c1 c2 f nw m tr t v : ~ In t (map fst c1) ->
      trans (Call X t v) (mkp q h k None false z w (c1 ++ (t, CLock) :: c2) f nw m tr) (mkp q h k (Some (AC t)) false z w (c1 ++ (t, CEnq) :: c2) f nw m tr)
  | T_cenq q h k o d z w c1 c2 f nw m tr t v q' h' : ~ In t (map fst c1) -> enq q h t = Some (q', h') ->
      trans (Call X t v) (mkp q h k o d z w (c1 ++ (t, CEnq) :: c2) f nw m tr) (mkp q' h' k o d z w (c1 ++ (t, CSignal) :: c2) f nw m (tr ++ [OEnqueued t (k t)]))
  | T_csignal_none q h k o z w c1 c2 f nw m tr t : ~ In t (map fst c1) -> ~ In WWait w ->
      trans (Call X t None) (mkp q h k o false z w (c1 ++ (t, CSignal) :: c2) f nw m tr) (mkp q h k o false z w (c1 ++ (t, CUnlock) :: c2) f nw m tr)
  | T_csignal q h k o z w1 w2 c1 c2 f nw m tr t : ~ In t (map fst c1) ->
      trans (Call X t (Some (length w1))) (mkp q h k o false z (w1 ++ WWait :: w2) (c1 ++ (t, CSignal) :: c2) f nw m tr) (mkp q h k o false z (w1 ++ WWake :: w2) (c1 ++ (t, CUnlock) :: c2) f nw m tr)
  | T_cunlock q h k o d z w c1 c2 f nw m tr t v : ~ In t (map fst c1) -> (forall i n, f <> FCall i n t) ->
      trans (Call X t v) (mkp q h k o d z w (c1 ++ (t, CUnlock) :: c2) f nw m tr) (mkp q h k None d z w (c1 ++ c2) f nw m tr)
  | T_creturn q h k o d z w c1 c2 i n nw m tr t v : ~ In t (map fst c1) ->
      trans (Call X t v) (mkp q h k o d z w (c1 ++ (t, CUnlock) :: c2) (FCall i n t) nw m tr) (mkp q h k None d z w (c1 ++ c2) (FMalloc (S i) n) nw m tr)
  | T_dlock q h k z w c nw m tr v :
      trans (Fin X v) (mkp q h k None false z w c FDiscardLock nw m tr) (mkp q h k (Some AF) false z w c FDiscardInit nw m tr)
  | T_dinit q h k o d z w c nw m tr v :
      trans (Fin X v) (mkp q h k o d z w c FDiscardInit nw m tr) (mkp queue_init h k o d z w c FDiscardUnlock nw m (tr ++ [ODiscarded]))
  | T_dunlock q h k o d z w c nw m tr v :
      trans (Fin X v) (mkp q h k o d z w c FDiscardUnlock nw m tr) (mkp q h k None d z w c (FMalloc 0 z) nw m tr)
  | T_mfail q h k o d z w c i n nw m tr : i < n ->
      trans (Fin X None) (mkp q h k o d z w c (FMalloc i n) nw m tr) (mkp q h k o d z w c (FReturned 1) nw m tr)
  | T_malloc q h k o d z w c i n nw m tr t : i < n -> t <> 0 -> in_use M (mkp q h k o d z w c (FMalloc i n) nw m tr) t = false ->
      trans (Fin X (Some t)) (mkp q h k o d z w c (FMalloc i n) nw m tr) (mkp q h (fun a => if a =? t then true else k a) o d z w (c ++ [(t, CLock)]) (FCall i n t) nw m tr)
  | T_mnowait q h k o d z w c i n m tr v : n <= i ->
      trans (Fin X v) (mkp q h k o d z w c (FMalloc i n) true m tr) (mkp q h k o d z w c (FReturned 0) true m tr)
  | T_mwait q h k o d z w c i n m tr v : n <= i ->
      trans (Fin X v) (mkp q h k o d z w c (FMalloc i n) false m tr) (mkp q h k o d z w c (FJoin 0 n) false m tr)
  | T_join q h k o d z w1 w2 c n nw m tr v d' : length w1 < n -> (if z - 1 =? 0 then d = false /\ d' = true else d' = d) ->
      trans (Fin X v) (mkp q h k o d z (w1 ++ WExited :: w2) c (FJoin (length w1) n) nw m tr) (mkp q h k o d' (z - 1) (w1 ++ WExited :: w2) c (FJoin (S (length w1)) n) nw m tr)
  | T_joined q h k o d z w c i n nw m tr v : n <= i ->
      trans (Fin X v) (mkp q h k o d z w c (FJoin i n) nw m tr) (mkp q h k o d z w c (FReturned 0) nw m tr).

Lemma find_call_some t l a pc b : find_call t l = Some (a, pc, b) -> l = a ++ (t, pc) :: b /\ ~ In t (map fst a).
Proof.
  revert a pc b. induction l as [|[u p] l IH]; cbn [find_call]; [discriminate|]. intros a pc b. destruct (Nat.eqb_spec u t) as [->|hne].
  - intros [= <- <- <-]. split; [reflexivity|auto].
  - destruct (find_call t l) as [[[a' p'] b']|]; [|discriminate]. intros [= <- <- <-]. destruct (IH _ _ _ eq_refl) as [-> h]. split; [reflexivity|]. cbn. intros [?|?]; auto.
Qed.
Lemma worker_split (w : list wpc) i pc : nth_error w i = Some pc -> exists w1 w2, w = w1 ++ pc :: w2 /\ i = length w1 /\ forall v, firstn i w ++ v :: skipn (S i) w = w1 ++ v :: w2.
Proof.
  intros h. destruct (nth_error_split w i h) as (w1 & w2 & -> & <-). exists w1, w2. split; [reflexivity|]. split; [reflexivity|]. intros v.
  rewrite firstn_app, firstn_all, Nat.sub_diag. cbn [firstn]. rewrite app_nil_r. replace (S (length w1)) with (length (w1 ++ [pc])) by (rewrite app_length; cbn; lia).
  replace (w1 ++ pc :: w2) with ((w1 ++ [pc]) ++ w2) by (rewrite <- app_assoc; reflexivity). rewrite skipn_app, skipn_all, Nat.sub_diag. reflexivity.
Qed.
Lemma existsb_false {A} (f : A -> bool) l : existsb f l = false -> forall a, In a l -> f a = false.
Proof. intros h a ha. destruct (f a) eqn:e; [|reflexivity]. rewrite <- h. symmetry. apply existsb_exists. eauto. Qed.

Lemma step_trans e s s' : step e s = Next s' -> trans e s s'.
Proof.
  destruct s as [q h k o d z w c f nw m tr]. destruct e as [t x|i|nw' dc|t v|i|v]; cbn [PoolModel.step].
  - cbn [PoolModel.q calls workers]. destruct (t =? 0) eqn:e1; [discriminate|]. destruct (in_use _ _ _) eqn:e2; [discriminate|]. cbn [orb]. destruct (Z.leb_spec two32 (qsize q + Z.of_nat (length c + length w) + 2)); [discriminate|].
    intros [= <-]. apply Nat.eqb_neq in e1. apply T_enqueue; assumption.
  - cbn [workers]. destruct (nth_error w i) as [[]|] eqn:e; try discriminate. intros [= <-]. destruct (worker_split w i _ e) as (w1 & w2 & -> & -> & hv). unfold set_worker, set_workers. cbn [workers]. rewrite hv. apply T_spurious.
  - cbn [fin PoolModel.q calls workers]. destruct f; try discriminate; (destruct (Z.leb_spec two32 (qsize q + Z.of_nat (length c + length w) + 1)); [discriminate|]); intros [= <-]; (apply T_finish; [eauto|assumption]).
  - unfold step_call, lock. cbn [calls destroyed owner]. destruct (find_call t c) as [[[c1 pc] c2]|] eqn:e; [|discriminate]. apply find_call_some in e as [-> hc]. destruct pc.
    + destruct d; [discriminate|]. destruct o; [discriminate|]. intros [= <-]. apply T_clock. exact hc.
    + cbn [PoolModel.q next]. destruct (enq q h t) as [[q' h']|] eqn:e; [|discriminate]. intros [= <-]. apply T_cenq; assumption.
    + destruct d; [discriminate|]. destruct v as [i|].
      * cbn [workers]. destruct (nth_error w i) as [[]|] eqn:e; try discriminate. intros [= <-]. destruct (worker_split w i _ e) as (w1 & w2 & -> & -> & hv). unfold set_worker, set_workers, set_calls. cbn. rewrite hv. apply T_csignal. exact hc.
      * cbn [workers]. destruct (existsb _ w) eqn:e; [discriminate|]. intros [= <-]. apply T_csignal_none; [exact hc|]. intros hi. apply (existsb_false _ _ e) in hi. discriminate.
    + intros [= <-]. unfold set_owner, set_calls. cbn. destruct f as [| | | | |i n u| |]; try (apply T_cunlock; [exact hc|discriminate]).
      destruct (Nat.eqb_spec u t) as [->|]; [apply T_creturn; exact hc|apply T_cunlock; [exact hc|congruence]].
  - unfold step_worker, lock. cbn [workers destroyed owner]. destruct (nth_error w i) as [pc|] eqn:e; [|discriminate]. destruct (worker_split w i _ e) as (w1 & w2 & -> & -> & hv). unfold set_worker, set_workers. cbn [workers]. destruct pc; try discriminate.
    + destruct d; [discriminate|]. destruct o; [discriminate|]. intros [= <-]. cbn. change (skipn (S (length w1))) with (skipn (A := wpc) (S (length w1))). rewrite hv. apply T_wlock. auto.
    + cbn [PoolModel.q next]. destruct (Z.eqb_spec (qsize q) 0) as [e0|e0].
      * destruct d; [discriminate|]. intros [= <-]. rewrite hv. apply T_wwait. exact e0.
      * destruct (deq q h) as [[t q']|] eqn:ed; [|discriminate]. intros [= <-]. rewrite hv. apply T_wtake; assumption.
    + destruct d; [discriminate|]. destruct o; [discriminate|]. intros [= <-]. cbn. rewrite hv. apply T_wlock. auto.
    + intros [= <-]. rewrite hv. apply T_wunlock.
    + cbn [is_finish]. rewrite !hv. destruct (k t) eqn:ek; intros [= <-]; [apply T_wexit|apply T_wstart]; exact ek.
    + rewrite !hv. destruct (nth_error code k0) eqn:ek; intros [= <-]; [apply (T_wrun _ _ _ _ _ _ _ _ _ _ _ _ _ _ _ _ ek)|apply T_wdone; exact ek].
  - unfold step_finish, lock. cbn [fin destroyed owner size no_wait workers]. destruct f; try discriminate.
    + destruct d; [discriminate|]. destruct o; [discriminate|]. intros [= <-]. apply T_dlock.
    + intros [= <-]. apply T_dinit.
    + intros [= <-]. apply T_dunlock.
    + destruct (Nat.ltb_spec i n).
      * destruct v as [t|]; [|intros [= <-]; apply T_mfail; assumption]. destruct (t =? 0) eqn:e1; [discriminate|]. destruct (in_use _ _ _) eqn:e2; [discriminate|]. cbn [orb]. intros [= <-]. apply Nat.eqb_neq in e1. apply T_malloc; assumption.
      * destruct nw; intros [= <-]; [apply T_mnowait|apply T_mwait]; assumption.
    + destruct (Nat.ltb_spec i n).
      * destruct (nth_error w i) as [[]|] eqn:e; try discriminate. destruct (worker_split w i _ e) as (w1 & w2 & -> & -> & _).
        destruct (z - 1 =? 0) eqn:ez; [destruct d; [discriminate|]|]; intros [= <-]; (apply T_join; [assumption|rewrite ez; auto]).
      * intros [= <-]. apply T_joined. assumption.
Qed.
End Pool.
