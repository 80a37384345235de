From Verif Require Import Base ResModel ResSpec ResProofs AllocModel.

Definition head_ok (h : header) (l : list nat) (s : store) : Prop := holds s (registered h ++ l) /\ header_ok h /\ (free_pointer h = None \/ free_pointer h = Some FreeMemory).
(** full: the next registration needs memory *)
Definition full (h : header) : bool := match array (memory_of h) with None => true | Some _ => negb (length (entries (memory_of h)) <? capacity (memory_of h)) end.

Lemma array_step allocated ok h s l : head_ok h l s ->
  exists success h' s', event_array allocated ok h s = Some (success, h', s') /\
    success = allocated && (ok || negb (full h)) /\
    (if success then head_ok h' l s' /\ exists s0, register (next s) h (snd (malloc s)) = Some (h', s') /\ s0 = s
     else h' = h /\ exists lost, holds s' (lost ++ registered h ++ l) /\ length lost = if allocated then 1 else 0).
Proof.
  intros (H & Hok & Hf). unfold event_array. destruct allocated.
  - pose proof (holds_malloc _ _ H) as H1. change (malloc s) with (next s, snd (malloc s)). cbn [fst snd] in *. set (s1 := snd (malloc s)) in *. set (a := next s) in *.
    unfold register_or_fail. fold (full h). assert (N : need (match array (memory_of h) with None => true | Some d => live s1 d end) = Some tt).
    { destruct (array (memory_of h)) as [d |] eqn:Ed; [| reflexivity]. rewrite (holds_live s1 _ d H1); [reflexivity |]. right. unfold registered. rewrite Ed. now left. }
    rewrite N. cbn [bind]. destruct (full h && negb ok)%bool eqn:Ef.
    + exists false, h, s1. split; [reflexivity |]. split; [destruct (full h), ok; cbn in *; congruence |]. split; [reflexivity |]. exists [a]. split; [exact H1 | reflexivity].
    + destruct (register_holds a h s1 l H1) as (h' & s' & Er & H' & Hp & Hfr & Ha). rewrite Er. cbn [bind]. exists true, h', s'. split; [reflexivity |]. split; [destruct (full h), ok; cbn in *; congruence |].
      split; [| exists s; auto]. split; [exact H' |]. assert (free_pointer h' = Some FreeMemory).
      { rewrite Hfr. unfold header_ok in Hok. destruct (array (memory_of h)), (free_pointer h) as [f |]; destruct Hok, Hf; congruence. }
      split; [right; congruence | now right].
  - exists false, h, s. split; [reflexivity |]. split; [reflexivity |]. split; [reflexivity |]. exists []. split; [exact H | reflexivity].
Qed.
Lemma free_head h s l lost : header_ok h -> (free_pointer h = None \/ free_pointer h = Some FreeMemory) -> holds s (lost ++ registered h ++ l) -> exists e s', free_event (Plain h 0 true) s = Some (e, s') /\ holds s' (lost ++ l).
Proof.
  intros Hok Hf H. apply (free_unprepared (Plain h 0 true) h); auto. eapply holds_perm; [| exact H]. rewrite !app_assoc. apply Permutation_app_tail. apply Permutation_app_comm.
Qed.
(** the whole sequence *)
Lemma arrays_holds : forall calls h s l, head_ok h l s ->
  exists success h' s' lost, event_arrays calls h s = Some (success, h', s') /\ header_ok h' /\ (free_pointer h' = None \/ free_pointer h' = Some FreeMemory) /\ holds s' (lost ++ registered h' ++ l) /\
    length lost <= 1 /\ (success = true -> lost = []) /\ (Forall (fun x => snd x = true) calls -> lost = []) /\ (Forall (fun x => x = (true, true)) calls -> success = true).
Proof.
  induction calls as [| [allocated ok] calls IH]; intros h s l H; cbn [event_arrays].
  - destruct H as (H1 & H2 & H3). exists true, h, s, []. split; [reflexivity |]. split; [exact H2 |]. split; [exact H3 |]. split; [exact H1 |]. split; [cbn; lia | auto].
  - destruct (array_step allocated ok h s l H) as (success & h' & s' & E & Es & R). rewrite E. cbn [bind]. destruct success.
    + destruct R as [R _]. destruct (IH h' s' l R) as (x & h2 & s2 & lost & E2 & a & b & c & d & e & f & g). exists x, h2, s2, lost. split; [exact E2 |]. split; [exact a |]. split; [exact b |]. split; [exact c |]. split; [exact d |]. split; [exact e |]. split; intros X; apply Forall_cons_iff in X as [_ X]; auto.
    + destruct R as (-> & lost & HL & Hn). exists false, h, s', lost. split; [reflexivity |]. destruct H as (_ & H2 & H3). split; [exact H2 |]. split; [exact H3 |]. split; [exact HL |]. split; [destruct allocated; lia |]. split; [discriminate |]. split; intros X; apply Forall_cons_iff in X as [X _]; cbn in X.
      * subst ok. destruct allocated; [discriminate Es |]. now apply length_zero_iff_nil.
      * injection X as -> ->. discriminate Es.
Qed.
Lemma new_ok s l : holds s l -> head_ok new_event l s.
Proof. intros H. split; [exact H |]. split; [left; reflexivity | left; reflexivity]. Qed.
Lemma holds_left s l s2 lost : holds s l -> holds s2 (lost ++ l) -> left_behind s s2 (length lost).
Proof. intros H1 H2. destruct (holds_new s l s2 lost H1 H2) as (a & b & c). exists lost. auto. Qed.
Lemma arrays_released : forall calls s, valid s ->
  exists success s2 n, arrays_and_free calls s = Some (success, s2) /\ left_behind s s2 n /\ n <= 1 /\ (success = true -> n = 0) /\ (Forall (fun x => snd x = true) calls -> n = 0) /\
    (Forall (fun x => x = (true, true)) calls -> success = true).
Proof.
  intros calls s Hv. destruct (valid_holds s Hv) as [l H]. destruct (arrays_holds calls new_event s l (new_ok s l H)) as (x & h & s1 & lost & E & a & b & c & d & e & f & g).
  destruct (free_head h s1 l lost a b c) as (ev & s2 & Ef & H2). exists x, s2, (length lost). unfold arrays_and_free. rewrite E. cbn [bind]. rewrite Ef. cbn [bind].
  split; [reflexivity |]. split; [apply (holds_left s l); auto |]. split; [exact d |]. split; [intros X; rewrite (e X); reflexivity |]. split; [intros X; rewrite (f X); reflexivity | exact g].
Qed.
(** successful calls, then one *)
Lemma arrays_app : forall a b h s, event_arrays (a ++ b) h s = ('(success, h, s) <- event_arrays a h s ;; if success : bool then event_arrays b h s else Some (false, h, s)).
Proof.
  induction a as [| [x y] a IH]; intros b h s; cbn [app event_arrays]; [reflexivity |]. destruct (event_array x y h s) as [[[ok h1] s1] |]; [| reflexivity]. cbn [bind]. destruct ok; [apply IH | reflexivity].
Qed.
Lemma arrays_repeat : forall n h s l, head_ok h l s -> exists h' s', event_arrays (repeat (true, true) n) h s = Some (true, h', s') /\ register_new n h s = Some (h', s') /\ head_ok h' l s'.
Proof.
  induction n as [| n IH]; intros h s l H; cbn [repeat event_arrays register_new]; [eauto 6 |].
  destruct (array_step true true h s l H) as (success & h' & s' & E & Es & R). cbn in Es. subst success. rewrite E. cbn [bind]. destruct R as (R & s0 & Er & _). change (malloc s) with (next s, snd (malloc s)). cbn iota beta. rewrite Er. cbn [bind]. apply (IH h' s' l R).
Qed.
Lemma full_count n s l h s' : holds s l -> register_new n new_event s = Some (h, s') -> full h = true <-> n = 0 \/ exists i, n = 4 * 2 ^ i.
Proof.
  intros H E. destruct n as [| n].
  - cbn in E. injection E as <- <-. cbn. tauto.
  - destruct (new_grown n s l h s' H E) as (Hl & d & c & Ha & Hf & Hc & Hle & i & Hi & Hb). unfold full. rewrite Ha, Hc, Hl. rewrite Hl in Hle, Hb. destruct (Nat.ltb_spec (S n) c) as [Hx | Hx]; cbn.
    + split; [discriminate |]. intros [X | [j Hj]]; [discriminate |]. exfalso. assert (2 ^ j < 2 ^ i) by lia. assert (j < i) by (apply (Nat.pow_lt_mono_r_iff 2); lia). destruct Hb as [-> | Hb]; [lia |]. assert (2 ^ j <= 2 ^ (i - 1)) by (apply Nat.pow_le_mono_r; lia). lia.
    + split; [| reflexivity]. intros _. right. exists i. lia.
Qed.
Lemma registration_fails : forall n rest s, valid s -> (n = 0 \/ exists i, n = 4 * 2 ^ i) ->
  exists s2, arrays_and_free (repeat (true, true) n ++ (true, false) :: rest) s = Some (false, s2) /\ left_behind s s2 1.
Proof.
  intros n rest s Hv Hn. destruct (valid_holds s Hv) as [l H]. destruct (arrays_repeat n new_event s l (new_ok s l H)) as (h & s1 & E & En & R). pose proof (proj2 (full_count n s l h s1 H En) Hn) as Hfull.
  destruct (array_step true false h s1 l R) as (success & h2 & s2 & E2 & Es & R2). rewrite Hfull in Es. cbn in Es. subst success. destruct R2 as (-> & lost & HL & Hlen). destruct R as (_ & R1 & R3). destruct (free_head h s2 l lost R1 R3 HL) as (ev & s3 & Ef & H3).
  exists s3. unfold arrays_and_free. rewrite arrays_app, E. cbn [bind event_arrays]. rewrite E2. cbn [bind]. rewrite Ef. cbn [bind]. split; [reflexivity |]. rewrite <- Hlen. apply (holds_left s l); auto.
Qed.
Lemma registration_room : forall n s, valid s -> n <> 0 -> (forall i, n <> 4 * 2 ^ i) -> exists s2, arrays_and_free (repeat (true, true) n ++ [(true, false)]) s = Some (true, s2) /\ left_behind s s2 0.
Proof.
  intros n s Hv H0 Hi. destruct (valid_holds s Hv) as [l H]. destruct (arrays_repeat n new_event s l (new_ok s l H)) as (h & s1 & E & En & R). assert (Hfull : full h = false). { destruct (full h) eqn:X; [| reflexivity]. exfalso. apply (full_count n s l h s1 H En) in X. destruct X as [X | [i X]]; [auto | exact (Hi i X)]. }
  destruct (array_step true false h s1 l R) as (success & h2 & s2 & E2 & Es & R2). rewrite Hfull in Es. cbn in Es. subst success. destruct R2 as ((A & B & C) & _). destruct (free_head h2 s2 l [] B C A) as (ev & s3 & Ef & H3).
  exists s3. unfold arrays_and_free. rewrite arrays_app, E. cbn [bind event_arrays]. rewrite E2. cbn [bind]. rewrite Ef. cbn [bind]. split; [reflexivity |]. apply (holds_left s l s3 []); auto.
Qed.
