From Coq Require Import Permutation.
From Verif Require Import Base ResModel ResSpec.

(** ** descriptions of stores *)
Definition holds (s : store) (l : list nat) : Prop := valid s /\ NoDup l /\ forall q, live s q = true <-> In q l.

Lemma holds_perm : forall s l l', Permutation l l' -> holds s l -> holds s l'.
Proof.
  intros s l l' Hp (Hv & Hn & Hl). split; [exact Hv | split; [eapply Permutation_NoDup; eauto |]].
  intros q. rewrite Hl. split; intros H; [eapply Permutation_in; eauto | eapply Permutation_in; [apply Permutation_sym; exact Hp | exact H]].
Qed.
Lemma holds_malloc : forall s l, holds s l -> holds (snd (malloc s)) (fst (malloc s) :: l).
Proof.
  intros s l (Hv & Hn & Hl). cbn. split; [| split].
  - intros q. cbn. intros H. apply orb_true_iff in H. destruct H as [H | H]; [apply Nat.eqb_eq in H; lia | apply Hv in H; lia].
  - constructor; [| exact Hn]. intros H. apply Hl in H. apply Hv in H. lia.
  - intros q. cbn. rewrite orb_true_iff, Nat.eqb_eq, Hl. split; intros [H | H]; auto.
Qed.
Lemma holds_release : forall s a l, holds s (a :: l) -> exists s', release a s = Some s' /\ holds s' l.
Proof.
  intros s a l (Hv & Hn & Hl). unfold release. assert (Ha : live s a = true) by (apply Hl; now left). rewrite Ha. cbn. eexists. split; [reflexivity |].
  inversion Hn; subst. split; [| split; [assumption |]].
  - intros q. cbn. intros H. apply andb_true_iff in H. apply Hv. tauto.
  - intros q. cbn. rewrite andb_true_iff, negb_true_iff, Nat.eqb_neq, Hl. cbn. split.
    + intros (H & [E | H']); [congruence | exact H'].
    + intros H. split; [intros ->; contradiction | now right].
Qed.
Lemma holds_live : forall s l q, holds s l -> In q l -> live s q = true.
Proof. intros s l q (_ & _ & Hl) H. now apply Hl. Qed.
Lemma holds_release_all : forall a s l, holds s (a ++ l) -> exists s', release_all a s = Some s' /\ holds s' l.
Proof.
  induction a as [| x a IH]; intros s l H; cbn in *; [eauto |].
  apply holds_release in H. destruct H as (s1 & E & H). rewrite E. cbn. now apply IH.
Qed.
Lemma valid_holds : forall s, valid s -> exists l, holds s l.
Proof.
  intros s Hv. exists (filter (live s) (seq 0 (next s))). split; [exact Hv | split].
  - apply NoDup_filter, seq_NoDup.
  - intros q. rewrite filter_In, in_seq. split; [intros H; split; [pose proof (Hv q H); lia | exact H] | tauto].
Qed.
Lemma holds_same : forall s s' l, holds s l -> holds s' l -> forall q, live s' q = live s q.
Proof.
  intros s s' l (_ & _ & H) (_ & _ & H') q. specialize (H q). specialize (H' q). destruct (live s q), (live s' q); try reflexivity; exfalso; intuition congruence.
Qed.

(** ** registers *)
Definition header_ok (h : header) : Prop := array (memory_of h) = None \/ free_pointer h <> None.
Lemma perm_mid : forall (a : nat) l r, Permutation (a :: l ++ r) (l ++ a :: r).
Proof. intros. apply Permutation_middle. Qed.
Lemma register_holds : forall a h s l, holds s (a :: registered h ++ l) ->
  exists h' s', register a h s = Some (h', s') /\ holds s' (registered h' ++ l) /\ to_prepare h' = to_prepare h /\
    (free_pointer h' = match array (memory_of h), free_pointer h with None, None => Some FreeMemory | _, f => f end) /\ array (memory_of h') <> None.
Proof.
  intros a h s l H. unfold register, registered in *. destruct (array (memory_of h)) as [d |] eqn:Ed.
  - rewrite (holds_live _ _ d H) by (right; now left). cbn [need bind].
    destruct (length (entries (memory_of h)) <? capacity (memory_of h)) eqn:Ec.
    + do 2 eexists. split; [reflexivity |]. cbn. repeat split; try congruence; try apply H.
      * eapply Permutation_NoDup; [| apply H]. cbn. rewrite <- !app_assoc. cbn. eapply perm_trans; [apply perm_swap |]. constructor. apply perm_mid.
      * intros Hq. apply H in Hq. cbn in *. rewrite !in_app_iff in *. cbn. tauto.
      * intros Hq. apply H. cbn in *. rewrite !in_app_iff in *. cbn in Hq. tauto.
    + assert (H1 : holds s (d :: a :: entries (memory_of h) ++ l)) by (eapply holds_perm; [| exact H]; cbn; apply perm_swap).
      apply holds_release in H1. destruct H1 as (s1 & E & H1). rewrite E. cbn [bind].
      apply holds_malloc in H1. destruct (malloc s1) as [d' s2] eqn:Em. cbn [fst snd] in H1. do 2 eexists. split; [reflexivity |]. cbn. repeat split; try congruence.
      * apply H1.
      * eapply Permutation_NoDup; [| apply H1]. rewrite <- !app_assoc. cbn. constructor. apply perm_mid.
      * intros Hq. apply H1 in Hq. cbn in *. rewrite !in_app_iff in *. cbn. tauto.
      * intros Hq. apply H1. cbn in *. rewrite !in_app_iff in *. cbn in Hq. tauto.
  - apply holds_malloc in H. destruct (malloc s) as [d' s2] eqn:Em. cbn [fst snd] in H. do 2 eexists. split; [reflexivity |]. cbn. repeat split; try congruence; try apply H.
Qed.
Lemma register_new_holds : forall n h s l, holds s (registered h ++ l) -> header_ok h ->
  exists h' s', register_new n h s = Some (h', s') /\ holds s' (registered h' ++ l) /\ to_prepare h' = to_prepare h /\ header_ok h' /\
    (free_pointer h <> None -> free_pointer h' = free_pointer h) /\ (free_pointer h = None -> free_pointer h' = None \/ free_pointer h' = Some FreeMemory).
Proof.
  induction n as [| n IH]; intros h s l H Hok; cbn.
  - do 2 eexists. split; [reflexivity |]. intuition.
  - apply holds_malloc in H. destruct (malloc s) as [a s1] eqn:Em. cbn [fst snd] in H.
    destruct (register_holds a h s1 l H) as (h1 & s2 & E & H1 & Ht & Hf & Ha). unfold malloc in Em. inversion Em; subst a s1. clear Em.
    cbn in E. rewrite E. cbn [bind].
    assert (Hok1 : header_ok h1). { right. rewrite Hf. destruct Hok as [Hok | Hok]; [rewrite Hok |]; destruct (array (memory_of h)), (free_pointer h); congruence. }
    destruct (IH h1 s2 l H1 Hok1) as (h2 & s3 & E2 & H2 & Ht2 & Hok2 & Hf2 & Hf3). rewrite E2. do 2 eexists. split; [reflexivity |]. split; [exact H2 |].
    split; [congruence |]. split; [exact Hok2 |]. split.
    + intros Hn. rewrite Hf2; rewrite Hf; destruct (array (memory_of h)), (free_pointer h); congruence.
    + intros Hn. rewrite Hn in Hf. destruct (array (memory_of h)) eqn:Ea; [destruct Hok as [Hok | Hok]; congruence |]. right. rewrite Hf2; congruence.
Qed.
Lemma memory_free_holds : forall h s l, holds s (registered h ++ l) ->
  exists h' s', memory_free h s = Some (h', s') /\ holds s' l /\ array (memory_of h') = None /\ free_pointer h' = free_pointer h /\ to_prepare h' = to_prepare h.
Proof.
  intros h s l H. unfold memory_free, registered in *. destruct (array (memory_of h)) as [d |] eqn:Ed.
  - rewrite (holds_live _ _ d H) by now left. cbn [need bind].
    assert (H1 : holds s (entries (memory_of h) ++ d :: l)) by (eapply holds_perm; [| exact H]; cbn; apply perm_mid).
    apply holds_release_all in H1. destruct H1 as (s1 & E & H1). rewrite E. cbn [bind].
    apply holds_release in H1. destruct H1 as (s2 & E2 & H2). rewrite E2. cbn [bind]. do 2 eexists. split; [reflexivity |]. cbn. auto.
  - do 2 eexists. split; [reflexivity |]. auto.
Qed.

(** ** freeing *)
Fixpoint event_rect' (P : event -> Prop) (fp : forall h k b, P (Plain h k b)) (fg : forall h l, Forall (fun x => P (snd x)) l -> P (Group h l))
  (fm : forall h i, P i -> P (MapOf h i)) (fn : forall h n t f, P (Noise h n t f)) (e : event) : P e :=
  match e with
  | Plain h k b => fp h k b
  | Group h l => fg h l ((fix go (l : list (nat * event)) : Forall (fun x => P (snd x)) l :=
      match l with [] => Forall_nil _ | x :: l => Forall_cons x (event_rect' P fp fg fm fn (snd x)) (go l) end) l)
  | MapOf h i => fm h i (event_rect' P fp fg fm fn i)
  | Noise h n t f => fn h n t f
  end.
Fixpoint recipe_rect' (P : recipe -> Prop) (fp : forall n k b, P (MakePlain n k b)) (fg : forall n l, Forall P l -> P (MakeGroup n l))
  (fm : forall n r, P r -> P (MakeMap n r)) (fn : forall n f, P (MakeNoise n f)) (r : recipe) : P r :=
  match r with
  | MakePlain n k b => fp n k b
  | MakeGroup n l => fg n l ((fix go (l : list recipe) : Forall P l :=
      match l with [] => Forall_nil _ | x :: l => Forall_cons x (recipe_rect' P fp fg fm fn x) (go l) end) l)
  | MakeMap n r => fm n r (recipe_rect' P fp fg fm fn r)
  | MakeNoise n f => fn n f
  end.

(** the free pointers are set as needed, with [FreeNoise] for noise events *)
Fixpoint complete (e : event) : Prop :=
  match e with
  | Plain h _ _ => header_ok h /\ (free_pointer h = None \/ free_pointer h = Some FreeMemory)
  | Group h l => free_pointer h = Some FreeGroup /\ fold_right (fun x P => complete (snd x) /\ P) True l
  | MapOf h i => free_pointer h = Some FreeMap /\ complete i
  | Noise h _ _ _ => free_pointer h = Some FreeNoise
  end.
Lemma free_group : forall h l s, free_pointer h = Some FreeGroup ->
  free_event (Group h l) s = (s <- list_free l s ;; '(h, s) <- memory_free (set_free None h) s ;; Some (Group h [], s)).
Proof. intros h l s E. cbn [free_event header_of]. rewrite E. reflexivity. Qed.
Lemma registered_set_free : forall f h, registered (set_free f h) = registered h.
Proof. reflexivity. Qed.

Definition free_good (e : event) : Prop := forall s l, complete e -> holds s (owned e ++ l) ->
  exists e' s', free_event e s = Some (e', s') /\ holds s' l /\ forall s, free_event e' s = Some (e', s).
Lemma list_free_holds : forall es, Forall (fun x => free_good (snd x)) es -> forall s l, fold_right (fun x P => complete (snd x) /\ P) True es ->
  holds s (flat_map (fun x => fst x :: owned (snd x)) es ++ l) -> exists s', list_free es s = Some s' /\ holds s' l.
Proof.
  induction 1 as [| [n c] es Hc Hes IH]; intros s l Hcomp H; cbn in *; [eauto |].
  destruct Hcomp as (Hc1 & Hcomp). rewrite (holds_live _ _ n H) by now left. cbn [need bind].
  assert (H1 : holds s (owned c ++ n :: flat_map (fun x => fst x :: owned (snd x)) es ++ l)).
  { eapply holds_perm; [| exact H]. rewrite <- app_assoc. apply perm_mid. }
  destruct (Hc s _ Hc1 H1) as (e' & s1 & E & H2 & _). rewrite E. cbn [bind].
  apply holds_release in H2. destruct H2 as (s2 & E2 & H2). rewrite E2. cbn [bind]. now apply IH.
Qed.
Lemma free_holds : forall e, free_good e.
Proof.
  apply event_rect'; unfold free_good.
  - intros h k b s l (Hok & Hf) H. cbn [free_event header_of owned] in *. destruct Hf as [Hf | Hf]; rewrite Hf.
    + do 2 eexists. split; [reflexivity |]. destruct Hok as [Hok | Hok]; [| congruence]. unfold registered in H. rewrite Hok in H. split; [exact H |].
      intros. cbn. now rewrite Hf.
    + destruct (memory_free_holds h s l H) as (h' & s' & E & H1 & Ha & Hf' & _). rewrite E. do 2 eexists. split; [reflexivity |]. split; [exact H1 |].
      intros s0. cbn. rewrite Hf', Hf. unfold memory_free. rewrite Ha. reflexivity.
  - intros h es IH s l (Hf & Hc) H. rewrite (free_group _ _ _ Hf). cbn [owned] in H.
    assert (H1 : holds s (flat_map (fun x => fst x :: owned (snd x)) es ++ registered h ++ l)).
    { eapply holds_perm; [| exact H]. rewrite !app_assoc. apply Permutation_app_tail, Permutation_app_comm. }
    destruct (list_free_holds es IH s _ Hc H1) as (s1 & E & H2). rewrite E. cbn [bind].
    destruct (memory_free_holds (set_free None h) s1 l H2) as (h' & s' & E2 & H3 & Ha & Hf' & _). rewrite E2. do 2 eexists. split; [reflexivity |]. split; [exact H3 |].
    intros s0. cbn. now rewrite Hf'.
  - intros h i IH s l (Hf & Hc) H. cbn [free_event header_of owned] in *. rewrite Hf.
    assert (H1 : holds s (owned i ++ registered h ++ l)).
    { eapply holds_perm; [| exact H]. rewrite !app_assoc. apply Permutation_app_tail, Permutation_app_comm. }
    destruct (IH s _ Hc H1) as (i' & s1 & E & H2 & _). rewrite E. cbn [bind].
    destruct (memory_free_holds (set_free None h) s1 l H2) as (h' & s' & E2 & H3 & Ha & Hf' & _). rewrite E2. do 2 eexists. split; [reflexivity |]. split; [exact H3 |].
    intros s0. cbn. now rewrite Hf'.
  - intros h n t f s l Hf H. cbn [complete] in Hf. cbn [free_event header_of owned] in *. rewrite Hf.
    assert (H1 : holds s (f ++ t ++ registered h ++ l)).
    { eapply holds_perm; [| exact H]. rewrite <- !app_assoc. eapply perm_trans; [apply Permutation_app_swap_app |].
      eapply perm_trans; [apply Permutation_app_head, Permutation_app_swap_app |]. apply Permutation_app_swap_app. }
    apply holds_release_all in H1. destruct H1 as (s1 & E1 & H1). rewrite E1. cbn [bind].
    apply holds_release_all in H1. destruct H1 as (s2 & E2 & H2). rewrite E2. cbn [bind].
    destruct (memory_free_holds (set_free None h) s2 l H2) as (h' & s' & E3 & H3 & Ha & Hf' & _). rewrite E3. do 2 eexists. split; [reflexivity |]. split; [exact H3 |].
    intros s0. cbn. now rewrite Hf'.
Qed.

(** ** building *)
Lemma build_group : forall n l s, build (MakeGroup n l) s = ('(h, s) <- register_new n new_event s ;; '(l, s) <- build_list l s ;; Some (Group h l, s)).
Proof. reflexivity. Qed.
(** what a built event is like *)
Fixpoint fresh_event (r : recipe) (e : event) : Prop :=
  to_prepare (header_of e) = true /\ header_ok (header_of e) /\ (free_pointer (header_of e) = None \/ free_pointer (header_of e) = Some FreeMemory) /\
  match r, e with
  | MakePlain _ k b, Plain _ k' b' => k = k' /\ b = b'
  | MakeGroup _ l, Group _ es => (fix go (l : list recipe) (es : list (nat * event)) : Prop :=
      match l, es with [], [] => True | r :: l, x :: es => fresh_event r (snd x) /\ go l es | _, _ => False end) l es
  | MakeMap _ r, MapOf _ e => fresh_event r e
  | MakeNoise _ n, Noise _ n' t f => n = n' /\ t = [] /\ f = []
  | _, _ => False
  end.
Fixpoint fresh_list (l : list recipe) (es : list (nat * event)) : Prop :=
  match l, es with [], [] => True | r :: l, x :: es => fresh_event r (snd x) /\ fresh_list l es | _, _ => False end.
Definition build_good (r : recipe) : Prop := forall s l, holds s l -> exists e s', build r s = Some (e, s') /\ holds s' (owned e ++ l) /\ fresh_event r e.
Lemma new_header : forall n s l, holds s l -> exists h s', register_new n new_event s = Some (h, s') /\ holds s' (registered h ++ l) /\
  to_prepare h = true /\ header_ok h /\ (free_pointer h = None \/ free_pointer h = Some FreeMemory).
Proof.
  intros n s l H. destruct (register_new_holds n new_event s l) as (h & s' & E & H1 & Ht & Hok & _ & Hf); [exact H | now left |].
  exists h, s'. repeat split; try assumption; try apply H1. now apply Hf.
Qed.
Lemma build_list_holds : forall rs, Forall build_good rs -> forall s l, holds s l ->
  exists es s', build_list rs s = Some (es, s') /\ holds s' (flat_map (fun x => fst x :: owned (snd x)) es ++ l) /\ fresh_list rs es.
Proof.
  induction 1 as [| r rs Hr Hrs IH]; intros s l H; cbn [build_list].
  - do 2 eexists. split; [reflexivity |]. split; [exact H | exact I].
  - destruct (Hr s l H) as (e & s1 & E & H1 & Hfr). rewrite E. cbn [bind]. apply holds_malloc in H1. destruct (malloc s1) as [a s2] eqn:Em. cbn [fst snd] in H1.
    destruct (IH s2 _ H1) as (es & s3 & E2 & H2 & Hfs). rewrite E2. cbn [bind]. do 2 eexists. split; [reflexivity |]. split; [| split; assumption].
    eapply holds_perm; [| exact H2]. cbn [flat_map fst snd]. rewrite <- app_assoc. cbn [app].
    eapply perm_trans; [apply Permutation_sym, Permutation_middle |]. constructor. apply Permutation_app_swap_app.
Qed.
Lemma build_holds : forall r, build_good r.
Proof.
  apply recipe_rect'; unfold build_good.
  - intros n k b s l H. cbn [build]. destruct (new_header n s l H) as (h & s' & E & H1 & Ht & Hok & Hf). rewrite E. do 2 eexists. split; [reflexivity |]. cbn. auto 10.
  - intros n rs IH s l H. rewrite build_group. destruct (new_header n s l H) as (h & s' & E & H1 & Ht & Hok & Hf). rewrite E. cbn [bind].
    destruct (build_list_holds rs IH s' _ H1) as (es & s2 & E2 & H2 & Hfs). rewrite E2. cbn [bind]. do 2 eexists. split; [reflexivity |]. split.
    + eapply holds_perm; [| exact H2]. cbn [owned]. rewrite !app_assoc. apply Permutation_app_tail, Permutation_app_comm.
    + cbn. auto.
  - intros n r IH s l H. cbn [build]. destruct (new_header n s l H) as (h & s' & E & H1 & Ht & Hok & Hf). rewrite E. cbn [bind].
    destruct (IH s' _ H1) as (e & s2 & E2 & H2 & Hfs). rewrite E2. cbn [bind]. do 2 eexists. split; [reflexivity |]. split.
    + eapply holds_perm; [| exact H2]. cbn [owned]. rewrite !app_assoc. apply Permutation_app_tail, Permutation_app_comm.
    + cbn. auto.
  - intros n f s l H. cbn [build]. destruct (new_header n s l H) as (h & s' & E & H1 & Ht & Hok & Hf). rewrite E. do 2 eexists. split; [reflexivity |]. cbn. rewrite app_nil_r. auto 10.
Qed.

(** ** preparing and playing *)
Lemma play_list_holds : forall d rs, Forall (fun r => forall e s l, fresh_event r e -> holds s (owned e ++ l) -> exists e' s', play d e s = Some (true, e', s') /\ holds s' (owned e' ++ l) /\ complete e') rs ->
  forall es before s l, fresh_list rs es -> fold_right (fun x P => complete (snd x) /\ P) True before ->
  holds s (flat_map (fun x => fst x :: owned (snd x)) (before ++ es) ++ l) ->
  exists es' s', play_list (play d) before es s = Some (true, es', s') /\ holds s' (flat_map (fun x => fst x :: owned (snd x)) es' ++ l) /\ fold_right (fun x P => complete (snd x) /\ P) True es'.
Proof.
  intros d rs Hrs. induction Hrs as [| r rs Hr Hrs IH]; intros es before s l Hf Hb H; destruct es as [| [n e] es]; try contradiction.
  - cbn. rewrite app_nil_r in H. eauto.
  - destruct Hf as (Hfe & Hf). cbn [snd] in Hfe. cbn [play_list].
    assert (H1 : holds s (owned e ++ n :: flat_map (fun x => fst x :: owned (snd x)) (before ++ es) ++ l)).
    { eapply holds_perm; [| exact H]. rewrite !flat_map_app. cbn [flat_map fst snd]. rewrite <- !app_assoc. cbn [app].
      eapply perm_trans; [apply Permutation_sym, Permutation_middle |]. eapply perm_trans; [| apply Permutation_middle]. constructor.
      apply Permutation_app_swap_app. }
    rewrite (holds_live _ _ n H1) by (apply in_or_app; right; now left). cbn [need bind].
    destruct (Hr e s _ Hfe H1) as (e' & s1 & E & H2 & Hc). rewrite E. cbn [bind].
    destruct (IH es (before ++ [(n, e')]) s1 l Hf) as (es' & s2 & E2 & H3 & Hc3).
    + rewrite fold_right_app. cbn. clear -Hb Hc. induction before as [| x b IH]; cbn in *; tauto.
    + eapply holds_perm; [| exact H2]. rewrite !flat_map_app. cbn [flat_map fst snd]. rewrite <- !app_assoc. cbn [app].
      eapply perm_trans; [apply Permutation_sym, Permutation_middle |]. eapply perm_trans; [| apply Permutation_middle]. constructor.
      cbn [app]. apply Permutation_app_swap_app.
    + rewrite E2. eauto.
Qed.
Lemma fresh_list_rev : forall rs es, fresh_list rs es -> fresh_list (rev rs) (rev es).
Proof.
  assert (Happ : forall rs es r x, fresh_list rs es -> fresh_event r (snd x) -> fresh_list (rs ++ [r]) (es ++ [x])).
  { induction rs as [| r' rs IH]; destruct es as [| x' es]; cbn; intros; try tauto. destruct H. split; [assumption |]. now apply IH. }
  induction rs as [| r rs IH]; destruct es as [| x es]; cbn; intros H; try contradiction; [exact I |]. destruct H. apply Happ; auto.
Qed.
Lemma depth_list : forall n rs d r, In r rs -> depth (MakeGroup n rs) <= S d -> depth r <= d.
Proof. intros n rs d r Hin H. cbn in H. apply le_S_n in H. revert H. induction rs as [| r' rs IH]; cbn in *; [contradiction |]. destruct Hin as [-> | Hin]; intros; [lia | apply IH; [assumption | lia]]. Qed.
Lemma fresh_header : forall r e, fresh_event r e -> to_prepare (header_of e) = true /\ header_ok (header_of e) /\ (free_pointer (header_of e) = None \/ free_pointer (header_of e) = Some FreeMemory).
Proof. intros r e H. destruct r; cbn in H; tauto. Qed.
Lemma owned_set_header : forall e h, registered h = registered (header_of e) -> owned (set_header e h) = owned e.
Proof. intros e h H. destruct e; cbn in *; now rewrite ?H. Qed.
(** a prepared event, and that playing it succeeds *)
Definition ready_good (r : recipe) : Prop := forall d e s l, regular r = true -> depth r <= d -> fresh_event r e -> holds s (owned e ++ l) ->
  exists e1 s1, prepare e s = Some (true, e1, s1) /\ holds s1 (owned e1 ++ l) /\
    forall s l, holds s (owned e1 ++ l) -> exists e2 s2, play d (prepare_done e1) s = Some (true, e2, s2) /\ holds s2 (owned e2 ++ l) /\ complete e2.
Lemma play_ready : forall d r, (forall e s l, fresh_event r e -> holds s (owned e ++ l) -> exists e1 s1, prepare e s = Some (true, e1, s1) /\ holds s1 (owned e1 ++ l) /\
    forall s l, holds s (owned e1 ++ l) -> exists e2 s2, play d (prepare_done e1) s = Some (true, e2, s2) /\ holds s2 (owned e2 ++ l) /\ complete e2) ->
  forall e s l, fresh_event r e -> holds s (owned e ++ l) -> exists e' s', play d e s = Some (true, e', s') /\ holds s' (owned e' ++ l) /\ complete e'.
Proof.
  intros d r Hr e s l Hf H. destruct (Hr e s l Hf H) as (e1 & s1 & E & H1 & Hp). destruct (Hp s1 l H1) as (e2 & s2 & E2 & H2 & Hc).
  exists e2, s2. split; [| split; assumption]. rewrite <- E2. pose proof (fresh_header _ _ Hf) as (Ht & _).
  assert (Hd : to_prepare (header_of (prepare_done e1)) = false) by (destruct e1; reflexivity).
  destruct d; cbn [play]; rewrite Ht, E, Hd; cbn [bind]; reflexivity.
Qed.
Lemma ready_holds : forall r, ready_good r.
Proof.
  apply recipe_rect'; unfold ready_good.
  - intros n k b d e s l Hreg _ Hf H. destruct e as [h k' b' | | |]; cbn in Hf; try tauto. destruct Hf as (Ht & Hok & Hfp & -> & <-). cbn in Hreg. subst b.
    destruct (register_new_holds k' h s l H Hok) as (h' & s' & E & H1 & Ht' & Hok' & Hf1 & Hf2). cbn [prepare]. rewrite E. cbn [bind]. do 2 eexists. split; [reflexivity |]. split; [exact H1 |].
    intros s2 l' H2. exists (prepare_done (Plain h' k' true)), s2. split; [destruct d; reflexivity |]. split; [exact H2 |]. cbn. split.
    + exact Hok'.
    + destruct Hfp as [Hfp | Hfp]; [destruct (Hf2 Hfp); auto | right; rewrite Hf1; congruence].
  - intros n rs IH d e s l Hreg Hd Hf H. destruct e as [| h es | |]; cbn in Hf; try tauto. destruct Hf as (Ht & Hok & Hfp & Hfs). change (fresh_list rs es) in Hfs.
    cbn [prepare]. do 2 eexists. split; [reflexivity |]. split.
    { eapply holds_perm; [| exact H]. cbn [owned]. rewrite registered_set_free. apply Permutation_app_tail, Permutation_app_head, Permutation_flat_map, Permutation_rev. }
    destruct d as [| d]; [cbn in Hd; lia |]. intros s2 l' H2.
    assert (Hrs : Forall (fun r => forall e s l, fresh_event r e -> holds s (owned e ++ l) -> exists e' s', play d e s = Some (true, e', s') /\ holds s' (owned e' ++ l) /\ complete e') (rev rs)).
    { apply Forall_rev. apply Forall_forall. intros r Hr. apply play_ready. intros e0 s0 l0. rewrite Forall_forall in IH. apply (IH r Hr d).
      - cbn in Hreg. rewrite forallb_forall in Hreg. now apply Hreg.
      - eapply depth_list; eauto. }
    cbn [owned] in H2. rewrite registered_set_free in H2.
    destruct (play_list_holds d (rev rs) Hrs (rev es) [] s2 (registered h ++ l') (fresh_list_rev _ _ Hfs) I) as (es' & s3 & E3 & H3 & Hc3).
    { eapply holds_perm; [| exact H2]. cbn [app]. rewrite !app_assoc. apply Permutation_app_tail, Permutation_app_comm. }
    eexists (Group _ es'), s3. split; [cbn [play prepare_done set_header header_of to_prepare negb bind]; rewrite E3; cbn [bind]; reflexivity |]. split.
    + eapply holds_perm; [| exact H3]. cbn [owned]. rewrite !app_assoc. apply Permutation_app_tail, Permutation_app_comm.
    + cbn. auto.
  - intros n r IH d e s l Hreg Hd Hf H. destruct e as [| | h i |]; cbn in Hf; try tauto. destruct Hf as (Ht & Hok & Hfp & Hfi). destruct d as [| d]; [cbn in Hd; lia |].
    cbn in Hreg. assert (Hd' : depth r <= d) by (cbn in Hd; lia). pose proof (fresh_header _ _ Hfi) as (Hti & _).
    assert (H1 : holds s (owned i ++ registered h ++ l)).
    { eapply holds_perm; [| exact H]. cbn [owned]. rewrite !app_assoc. apply Permutation_app_tail, Permutation_app_comm. }
    destruct (IH d i s _ Hreg Hd' Hfi H1) as (i1 & s1 & E1 & H2 & Hp). cbn [prepare]. rewrite Hti, E1. cbn [bind]. do 2 eexists. split; [reflexivity |].
    assert (Ho : owned (prepare_done i1) = owned i1) by (unfold prepare_done; apply owned_set_header; reflexivity).
    split.
    { eapply holds_perm; [| exact H2]. cbn [owned]. rewrite registered_set_free, Ho, !app_assoc. apply Permutation_app_tail, Permutation_app_comm. }
    intros s2 l' H3. cbn [owned] in H3. rewrite registered_set_free, Ho in H3.
    destruct (Hp s2 (registered h ++ l')) as (i2 & s3 & E2 & H4 & Hc).
    { eapply holds_perm; [| exact H3]. rewrite !app_assoc. apply Permutation_app_tail, Permutation_app_comm. }
    eexists (MapOf _ i2), s3. split; [cbn [play]; unfold prepare_done at 1; cbn [set_header header_of to_prepare negb bind]; unfold prepare_done at 1; cbn [set_header]; rewrite E2; cbn [bind]; reflexivity |]. split.
    + eapply holds_perm; [| exact H4]. cbn [owned]. rewrite !app_assoc. apply Permutation_app_tail, Permutation_app_comm.
    + cbn. auto.
  - intros n f d e s l Hreg. discriminate.
Qed.
Lemma released : forall r d s, valid s -> regular r = true -> depth r <= d ->
  exists e s1 e2 s2 e3 s3, build r s = Some (e, s1) /\ play d e s1 = Some (true, e2, s2) /\ free_event e2 s2 = Some (e3, s3) /\
    (forall q, live s1 q = true <-> live s q = true \/ In q (owned e)) /\
    (forall q, live s2 q = true <-> live s q = true \/ In q (owned e2)) /\
    (forall q, live s3 q = live s q) /\ (forall s, free_event e3 s = Some (e3, s)).
Proof.
  intros r d s Hv Hreg Hd. destruct (valid_holds s Hv) as (l & H). destruct (build_holds r s l H) as (e & s1 & E1 & H1 & Hf).
  destruct (play_ready d r (fun e s l => ready_holds r d e s l Hreg Hd) e s1 l Hf H1) as (e2 & s2 & E2 & H2 & Hc).
  destruct (free_holds e2 s2 l Hc H2) as (e3 & s3 & E3 & H3 & Hi). exists e, s1, e2, s2, e3, s3.
  split; [exact E1 |]. split; [exact E2 |]. split; [exact E3 |]. pose proof H as (Hv0 & Hn0 & Hl0). destruct H1 as (Hv1 & Hn1 & Hl1). destruct H2 as (Hv2 & Hn2 & Hl2).
  split; [| split; [| split]].
  - intros q. rewrite Hl1, Hl0, in_app_iff. tauto.
  - intros q. rewrite Hl2, Hl0, in_app_iff. tauto.
  - apply (holds_same s s3 l); [exact H | exact H3].
  - exact Hi.
Qed.

(** ** what is not released *)
Lemma malloc_n_holds : forall n s l, holds s l -> let '(a, s') := malloc_n n s in holds s' (a ++ l) /\ length a = n.
Proof.
  induction n as [| n IH]; intros s l H; cbn [malloc_n]; [now split |].
  apply holds_malloc in H. destruct (malloc s) as [a s1]. cbn [fst snd] in H. specialize (IH s1 (a :: l) H). destruct (malloc_n n s1) as [b s2]. destruct IH as (H2 & Hn).
  split; [| cbn; lia]. eapply holds_perm; [| exact H2]. apply Permutation_sym. cbn. apply perm_mid.
Qed.
Lemma free_unprepared : forall e h s l, header_ok h -> free_pointer h = None \/ free_pointer h = Some FreeMemory -> header_of e = h -> holds s (registered h ++ l) ->
  exists e' s', free_event e s = Some (e', s') /\ holds s' l.
Proof.
  intros e h s l Hok Hf He H. assert (E : free_event e s = match free_pointer h with None => Some (e, s) | _ => '(h, s) <- memory_free h s ;; Some (set_header e h, s) end).
  { destruct e; cbn in He; subst; destruct Hf as [Hf | Hf]; cbn [free_event header_of]; rewrite Hf; reflexivity. }
  rewrite E. destruct Hf as [Hf | Hf]; rewrite Hf.
  - destruct Hok as [Hok | Hok]; [| congruence]. unfold registered in H. rewrite Hok in H. eauto.
  - destruct (memory_free_holds h s l H) as (h' & s' & E' & H' & _). rewrite E'. cbn [bind]. eauto.
Qed.
Lemma holds_new : forall s l s' a, holds s l -> holds s' (a ++ l) -> NoDup a /\ (forall q, In q a -> live s q = false) /\ (forall q, live s' q = true <-> live s q = true \/ In q a).
Proof.
  intros s l s' a (_ & _ & Hl) (_ & Hn & Hl'). split; [| split].
  - clear -Hn. induction a as [| x a IH]; [constructor |]. cbn in Hn. inversion Hn; subst. constructor; [| auto]. intros Hx. apply H1, in_or_app. now left.
  - intros q Hq. apply not_true_is_false. rewrite Hl. intros Hq'. revert Hq Hq' Hn. clear. induction a as [| x a IH]; cbn; [tauto |].
    intros [-> | Hq] Hl Hn; inversion Hn; subst; [apply H1, in_or_app; now right | now apply IH].
  - intros q. rewrite Hl', Hl, in_app_iff. tauto.
Qed.
Lemma noise_leak : forall n f d s, valid s -> 1 <= f ->
  exists e s1 h temps states s2 e3 s3, build (MakeNoise n f) s = Some (e, s1) /\ play d e s1 = Some (true, Noise h f temps states, s2) /\ free_event (Noise h f temps states) s2 = Some (e3, s3) /\
    length temps = (if f =? 1 then 2 else 3) /\ length states = f /\ NoDup (temps ++ states) /\
    (forall q, In q (temps ++ states) -> live s q = false) /\ (forall q, live s3 q = true <-> live s q = true \/ In q (temps ++ states)).
Proof.
  intros n f d s Hv Hf. destruct (valid_holds s Hv) as (l & H). cbn [build]. destruct (new_header n s l H) as (h & s1 & E & H1 & Ht & Hok & Hfp). rewrite E. cbn [bind].
  pose proof (malloc_n_holds (if f =? 1 then 2 else 3) s1 _ H1) as Ha. destruct (malloc_n (if f =? 1 then 2 else 3) s1) as [temps s1'] eqn:Et. destruct Ha as (Ha & La).
  pose proof (malloc_n_holds f s1' _ Ha) as Hb. destruct (malloc_n f s1') as [states s2] eqn:Es. destruct Hb as (Hb & Lb).
  set (h' := mkheader false (free_pointer h) (memory_of h)).
  destruct (free_unprepared (Noise h' f temps states) h' s2 ((temps ++ states) ++ l)) as (e3 & s3 & E3 & H3); [exact Hok | exact Hfp | reflexivity | |].
  { eapply holds_perm; [| exact Hb]. change (registered h') with (registered h).
    rewrite <- (app_assoc temps). eapply perm_trans; [apply Permutation_app_swap_app |].
    eapply perm_trans; [apply Permutation_app_head, Permutation_app_swap_app |]. apply Permutation_app_swap_app. }
  exists (Noise h f [] []), s1, h', temps, states, s2, e3, s3. split; [reflexivity |]. split.
  { destruct d; cbn [play header_of]; rewrite Ht; cbn [prepare]; rewrite Et, Es; reflexivity. }
  split; [exact E3 |]. split; [exact La |]. split; [exact Lb |]. exact (holds_new s l s3 _ H H3).
Qed.
Lemma build_group_shape : forall n rs s, valid s -> exists h es s1, build (MakeGroup n rs) s = Some (Group h es, s1) /\ length es = length rs /\ header_ok h /\
  (free_pointer h = None \/ free_pointer h = Some FreeMemory) /\ forall l, holds s l -> holds s1 (owned (Group h es) ++ l).
Proof.
  intros n rs s Hv. destruct (valid_holds s Hv) as (l & H). destruct (build_holds (MakeGroup n rs) s l H) as (e & s1 & E & H1 & Hf).
  destruct e as [| h es | |]; cbn in Hf; try tauto. destruct Hf as (Ht & Hok & Hfp & Hfs). change (fresh_list rs es) in Hfs. exists h, es, s1. split; [exact E |].
  split.
  - clear -Hfs. revert es Hfs. induction rs as [| r rs IH]; destruct es; cbn; intros; try contradiction; [reflexivity |]. f_equal. now apply IH.
  - split; [exact Hok |]. split; [exact Hfp |]. intros l' H'. destruct (build_holds (MakeGroup n rs) s l' H') as (e' & s1' & E' & H1' & _). rewrite E in E'. inversion E'; subst. exact H1'.
Qed.
Lemma unprepared_leak : forall n rs s, valid s ->
  exists h es s1 e3 s3, build (MakeGroup n rs) s = Some (Group h es, s1) /\ length es = length rs /\ free_event (Group h es) s1 = Some (e3, s3) /\
    (forall q, live s3 q = true <-> live s q = true \/ In q (flat_map (fun x => fst x :: owned (snd x)) es)) /\
    (forall q, In q (flat_map (fun x => fst x :: owned (snd x)) es) -> live s q = false).
Proof.
  intros n rs s Hv. destruct (build_group_shape n rs s Hv) as (h & es & s1 & E & Hlen & Hok & Hfp & Hh). destruct (valid_holds s Hv) as (l & H). specialize (Hh l H).
  destruct (free_unprepared (Group h es) h s1 (flat_map (fun x => fst x :: owned (snd x)) es ++ l)) as (e3 & s3 & E3 & H3); auto.
  { eapply holds_perm; [| exact Hh]. cbn [owned]. rewrite <- app_assoc. apply Permutation_refl. }
  destruct (holds_new s l s3 _ H H3) as (_ & Ha & Hb). exists h, es, s1, e3, s3. auto.
Qed.
Lemma register_array : forall a h s h' s', register a h s = Some (h', s') -> array (memory_of h') <> None /\ (header_ok h -> free_pointer h' <> None).
Proof.
  intros a h s h' s' E. unfold register in E. destruct (array (memory_of h)) as [d |] eqn:Ed.
  - destruct (live s d); [cbn [need bind] in E | discriminate]. destruct (length (entries (memory_of h)) <? capacity (memory_of h)).
    + inversion E; subst. cbn. split; [congruence |]. intros [? | ?]; congruence.
    + destruct (release d s) as [s1 |]; [cbn in E | discriminate]. inversion E; subst. cbn. split; [congruence |]. intros [? | ?]; congruence.
  - cbn in E. inversion E; subst. cbn. split; [congruence |]. destruct (free_pointer h); congruence.
Qed.
Lemma release_dead : forall p s s', release p s = Some s' -> live s' p = false.
Proof. intros p s s' E. unfold release in E. destruct (live s p); [| discriminate]. inversion E. cbn. now rewrite Nat.eqb_refl. Qed.
Lemma release_stays : forall p q s s', release p s = Some s' -> live s q = false -> live s' q = false.
Proof. intros p q s s' E Hq. unfold release in E. destruct (live s p); [| discriminate]. inversion E. cbn. rewrite Hq. apply andb_false_r. Qed.
Lemma copies_undefined : forall n k b s e s1, valid s -> build (MakePlain (S n) k b) s = Some (e, s1) -> forall x y s2, list_free [(x, e); (y, e)] s2 = None.
Proof.
  intros n k b s e s1 Hv E x y s2. cbn [build] in E. destruct (valid_holds s Hv) as (l & H).
  destruct (new_header (S n) s l H) as (h & s' & E' & H1 & Ht & Hok & Hfp). rewrite E' in E. cbn [bind] in E. inversion E; subst e s'. clear E.
  assert (Ha : exists d, array (memory_of h) = Some d /\ free_pointer h = Some FreeMemory).
  { cbn [register_new] in E'. destruct (malloc s) as [a s3]. destruct (register a new_event s3) as [[h2 s4] |] eqn:Er; [| discriminate]. cbn [bind] in E'.
    destruct (register_array _ _ _ _ _ Er) as (Ha & Hf). assert (Hf2 : free_pointer h2 <> None) by (apply Hf; now left). clear Er Hf H.
    assert (Hh : array (memory_of h) <> None /\ free_pointer h <> None).
    { revert h2 s4 E' Ha Hf2. clear. induction n as [| n IH]; intros h2 s4 E Ha Hf; cbn [register_new] in E; [inversion E; subst; auto |].
      destruct (malloc s4) as [a s5]. destruct (register a h2 s5) as [[h3 s6] |] eqn:Er; [| discriminate]. cbn [bind] in E.
      destruct (register_array _ _ _ _ _ Er) as (Ha' & Hf'). eapply IH; [exact E | exact Ha' | apply Hf'; now right]. }
    destruct (array (memory_of h)) as [dd |]; [| tauto]. exists dd. split; [reflexivity |]. destruct Hfp; tauto. }
  destruct Ha as (dd & Ha & Hf). cbn [list_free]. destruct (live s2 x); [cbn [need bind] | reflexivity].
  assert (Hfe : forall s, free_event (Plain h k b) s = ('(h, s) <- memory_free h s ;; Some (Plain h k b, s))) by (intros; cbn [free_event header_of]; rewrite Hf; reflexivity).
  rewrite Hfe. destruct (memory_free h s2) as [[h2 s3] |] eqn:Em; [| reflexivity]. cbn [bind].
  assert (Hd : live s3 dd = false).
  { unfold memory_free in Em. rewrite Ha in Em. destruct (live s2 dd); [| discriminate]. cbn [need bind] in Em. destruct (release_all (entries (memory_of h)) s2) as [s4 |]; [| discriminate]. cbn [bind] in Em.
    destruct (release dd s4) as [s5 |] eqn:Er; [| discriminate]. cbn [bind] in Em. inversion Em; subst. eapply release_dead; eauto. }
  destruct (release x s3) as [s4 |] eqn:Er; [| reflexivity]. cbn [bind]. pose proof (release_stays _ _ _ _ Er Hd) as Hd4.
  destruct (live s4 y); [cbn [need bind] | reflexivity]. rewrite Hfe. unfold memory_free. rewrite Ha, Hd4. reflexivity.
Qed.

(** ** failing prepare functions *)
Lemma fresh_plain_complete : forall n k b e, fresh_event (MakePlain n k b) e -> complete e.
Proof. intros n k b e H. destruct e; cbn in H; try tauto. cbn. tauto. Qed.
Lemma flat_complete : forall rs es, forallb flat rs = true -> fresh_list rs es -> fold_right (fun x P => complete (snd x) /\ P) True es.
Proof.
  induction rs as [| r rs IH]; destruct es as [| x es]; intros Hb H; try contradiction; [exact I |]. cbn in Hb. apply andb_true_iff in Hb. destruct H as (H & Hs).
  cbn. split; [| apply IH; tauto]. destruct r; try (destruct Hb; discriminate). eapply fresh_plain_complete; eauto.
Qed.
Lemma complete_app : forall a b, fold_right (fun (x : nat * event) P => complete (snd x) /\ P) True (a ++ b) <->
  fold_right (fun x P => complete (snd x) /\ P) True a /\ fold_right (fun x P => complete (snd x) /\ P) True b.
Proof. induction a as [| x a IH]; intros b; cbn; [tauto |]. rewrite IH. tauto. Qed.
Lemma play_flat : forall d rs es before s l, forallb flat rs = true -> fresh_list rs es -> fold_right (fun x P => complete (snd x) /\ P) True before ->
  holds s (flat_map (fun x => fst x :: owned (snd x)) (before ++ es) ++ l) ->
  exists es' s', play_list (play d) before es s = Some (forallb succeeds rs, es', s') /\ holds s' (flat_map (fun x => fst x :: owned (snd x)) es' ++ l) /\
    fold_right (fun x P => complete (snd x) /\ P) True es' /\ (forallb succeeds rs = false -> es' = []).
Proof.
  intros d. induction rs as [| r rs IH]; intros es before s l Hb Hf Hc H; destruct es as [| [n e] es]; try contradiction.
  - cbn. rewrite app_nil_r in H. do 2 eexists. split; [reflexivity |]. split; [exact H |]. split; [exact Hc | discriminate].
  - cbn [forallb] in Hb. apply andb_true_iff in Hb. destruct Hb as (Hr & Hb). destruct Hf as (Hfe & Hf). cbn [snd] in Hfe. cbn [play_list].
    assert (H1 : holds s (owned e ++ n :: flat_map (fun x => fst x :: owned (snd x)) (before ++ es) ++ l)).
    { eapply holds_perm; [| exact H]. rewrite !flat_map_app. cbn [flat_map fst snd]. rewrite <- !app_assoc. cbn [app].
      eapply perm_trans; [apply Permutation_sym, Permutation_middle |]. eapply perm_trans; [| apply Permutation_middle]. constructor.
      apply Permutation_app_swap_app. }
    rewrite (holds_live _ _ n H1) by (apply in_or_app; right; now left). cbn [need bind].
    destruct r as [m k b | | |]; try discriminate. cbn in Hr. destruct b.
    + destruct (play_ready d (MakePlain m k true) (fun e s l => ready_holds (MakePlain m k true) d e s l eq_refl (Nat.le_0_l d)) e s _ Hfe H1) as (e' & s1 & E & H2 & Hc').
      rewrite E. cbn [bind]. cbn [forallb succeeds andb].
      destruct (IH es (before ++ [(n, e')]) s1 l Hb Hf) as (es' & s2 & E2 & H3 & Hc3 & Hz).
      * apply complete_app. cbn. tauto.
      * eapply holds_perm; [| exact H2]. rewrite !flat_map_app. cbn [flat_map fst snd]. rewrite <- !app_assoc. cbn [app].
        eapply perm_trans; [apply Permutation_sym, Permutation_middle |]. eapply perm_trans; [| apply Permutation_middle]. constructor.
        cbn [app]. apply Permutation_app_swap_app.
      * rewrite E2. eauto 10.
    + cbn in Hr. apply Nat.eqb_eq in Hr. subst k. cbn [forallb succeeds andb].
      assert (E : play d e s = Some (false, e, s)).
      { destruct e as [h k b | | |]; cbn in Hfe; try tauto. destruct Hfe as (Ht & _ & _ & <- & <-). destruct d; cbn [play header_of]; rewrite Ht; reflexivity. }
      rewrite E. cbn [bind].
      destruct (list_free_holds (before ++ (n, e) :: es)) with (s := s) (l := l) as (s' & E' & H').
      * apply Forall_forall. intros x _. apply free_holds.
      * apply complete_app. split; [exact Hc |]. cbn. split; [eapply fresh_plain_complete; eauto | eapply flat_complete; eauto].
      * exact H.
      * rewrite E'. do 2 eexists. split; [reflexivity |]. split; [exact H' |]. split; [exact I | reflexivity].
Qed.
Lemma failure_flat : forall rs d s, valid s -> forallb flat rs = true ->
  exists es s1 es2 s2 s3, build_list rs s = Some (es, s1) /\ play_list (play d) [] es s1 = Some (forallb succeeds rs, es2, s2) /\
    (forallb succeeds rs = false -> es2 = []) /\ list_free es2 s2 = Some s3 /\ (forall q, live s3 q = live s q).
Proof.
  intros rs d s Hv Hb. destruct (valid_holds s Hv) as (l & H). destruct (build_list_holds rs) with (s := s) (l := l) as (es & s1 & E & H1 & Hf); auto.
  { apply Forall_forall. intros r _. apply build_holds. }
  destruct (play_flat d rs es [] s1 l Hb Hf I H1) as (es2 & s2 & E2 & H2 & Hc & Hz).
  destruct (list_free_holds es2) with (s := s2) (l := l) as (s3 & E3 & H3); auto.
  { apply Forall_forall. intros x _. apply free_holds. }
  exists es, s1, es2, s2, s3. split; [exact E |]. split; [exact E2 |]. split; [exact Hz |]. split; [exact E3 |]. exact (holds_same _ _ _ H H3).
Qed.

(** *** what a failing prepare function leaves *)
Definition dead (s : store) (d : nat) : Prop := live s d = false /\ d < next s.
Lemma dead_malloc : forall s d, dead s d -> dead (snd (malloc s)) d.
Proof. intros s d (H & Hn). unfold dead. cbn. split; [| lia]. rewrite H, orb_false_r. apply Nat.eqb_neq. lia. Qed.
Lemma dead_release : forall p s s' d, release p s = Some s' -> dead s d -> dead s' d.
Proof.
  intros p s s' d E (H & Hn). unfold release in E. destruct (live s p); [| discriminate]. inversion E; subst. unfold dead. cbn. split; [| lia]. rewrite H. apply andb_false_r.
Qed.
Lemma dead_register : forall a h s h' s' d, register a h s = Some (h', s') -> dead s d -> dead s' d.
Proof.
  intros a h s h' s' d E H. unfold register in E. destruct (array (memory_of h)) as [x |].
  - destruct (live s x); [cbn [need bind] in E | discriminate]. destruct (length (entries (memory_of h)) <? capacity (memory_of h)); [inversion E; now subst |].
    destruct (release x s) as [s1 |] eqn:Er; [| discriminate]. cbn [bind] in E. pose proof (dead_release _ _ _ _ Er H) as H1. pose proof (dead_malloc _ _ H1) as H2.
    destruct (malloc s1) as [y s2]. inversion E; subst. exact H2.
  - pose proof (dead_malloc _ _ H) as H2. destruct (malloc s) as [y s2]. inversion E; subst. exact H2.
Qed.
Lemma dead_register_new : forall n h s h' s' d, register_new n h s = Some (h', s') -> dead s d -> dead s' d.
Proof.
  induction n as [| n IH]; intros h s h' s' d E H; cbn [register_new] in E; [inversion E; now subst |].
  pose proof (dead_malloc _ _ H) as H1. destruct (malloc s) as [a s1]. destruct (register a h s1) as [[h1 s2] |] eqn:Er; [| discriminate]. cbn [bind] in E.
  eapply IH; [exact E |]. eapply dead_register; eauto.
Qed.
(** the register of an event after at least one registration *)
Definition grown (h : header) (d c : nat) : Prop :=
  array (memory_of h) = Some d /\ free_pointer h = Some FreeMemory /\ capacity (memory_of h) = c /\ length (entries (memory_of h)) <= c /\
  exists i, c = 4 * 2 ^ i /\ (i = 0 \/ 4 * 2 ^ (i - 1) < length (entries (memory_of h))).
Lemma register_first : forall a h s h' s', array (memory_of h) = None -> free_pointer h = None -> register a h s = Some (h', s') -> exists d, grown h' d 4 /\ entries (memory_of h') = [a].
Proof.
  intros a h s h' s' Ha Hf E. unfold register in E. rewrite Ha, Hf in E. cbn in E. inversion E; subst. exists (next s). unfold grown. cbn. split; [| reflexivity]. split; [reflexivity |]. split; [reflexivity |]. split; [reflexivity |]. split; [lia |]. exists 0. auto.
Qed.
Lemma register_grown : forall a h s h' s' d c, grown h d c -> valid s -> register a h s = Some (h', s') ->
  entries (memory_of h') = entries (memory_of h) ++ [a] /\
  (length (entries (memory_of h)) < c -> grown h' d c) /\
  (length (entries (memory_of h)) = c -> (exists d', grown h' d' (2 * c)) /\ dead s' d).
Proof.
  intros a h s h' s' d c (Ha & Hf & Hc & Hl & i & Hi & Hb) Hv E. unfold register in E. rewrite Ha in E. destruct (live s d) eqn:El; [cbn [need bind] in E | discriminate].
  rewrite Hc in E. destruct (length (entries (memory_of h)) <? c) eqn:Ec.
  - inversion E; subst h' s'. cbn. apply Nat.ltb_lt in Ec. split; [reflexivity |]. split; [| lia]. intros _. unfold grown. cbn. rewrite app_length. cbn. split; [reflexivity |]. split; [exact Hf |]. split; [reflexivity |]. split; [lia |].
    exists i. split; [exact Hi |]. destruct Hb; [now left | right; lia].
  - apply Nat.ltb_ge in Ec. destruct (release d s) as [s1 |] eqn:Er; [| discriminate]. cbn [bind] in E. assert (Hd : dead s1 d).
    { split; [eapply release_dead; eauto |]. unfold release in Er. rewrite El in Er. inversion Er. cbn. now apply Hv. }
    pose proof (dead_malloc _ _ Hd) as Hd'. destruct (malloc s1) as [y s2]. inversion E; subst h' s'. cbn [set_memory memory_of entries]. split; [reflexivity |]. split; [lia |]. intros Hx. split; [| exact Hd'].
    exists y. unfold grown. cbn [set_memory memory_of entries array capacity free_pointer]. rewrite app_length. cbn [length]. assert (1 <= c) by (rewrite Hi; pose proof (Nat.pow_nonzero 2 i ltac:(lia)); lia). split; [reflexivity |]. split; [exact Hf |]. split; [reflexivity |]. split; [lia |]. exists (S i). rewrite Nat.pow_succ_r'. split; [lia |]. right.
    replace (S i - 1) with i by lia. lia.
Qed.
Lemma register_new_grown : forall k h s l h' s' d c, grown h d c -> holds s (registered h ++ l) -> register_new k h s = Some (h', s') ->
  exists new, length new = k /\ entries (memory_of h') = entries (memory_of h) ++ new /\ (exists d' c', grown h' d' c') /\
    (length (entries (memory_of h)) + k <= c -> grown h' d c) /\ (c < length (entries (memory_of h)) + k -> dead s' d).
Proof.
  induction k as [| k IH]; intros h s l h' s' d c Hg H E; cbn [register_new] in E.
  - inversion E; subst. exists []. rewrite app_nil_r. split; [reflexivity |]. split; [reflexivity |]. split; [eauto |]. split; [auto |]. destruct Hg as (_ & _ & _ & Hl & _). lia.
  - apply holds_malloc in H. destruct (malloc s) as [a s1]. cbn [fst snd] in H. destruct (register_holds a h s1 l H) as (h1 & s2 & Er & H1 & _). rewrite Er in E. cbn [bind] in E.
    destruct (register_grown a h s1 h1 s2 d c Hg (proj1 H) Er) as (He & Hlt & Heq).
    assert (Hlen : length (entries (memory_of h1)) = S (length (entries (memory_of h)))) by (rewrite He, app_length; cbn; lia).
    destruct (Nat.eq_dec (length (entries (memory_of h))) c) as [Hx | Hx].
    + destruct (Heq Hx) as ((d' & Hg') & Hd). destruct (IH h1 s2 l h' s' d' (2 * c) Hg' H1 E) as (new & Hn & He2 & Hex & _ & _).
      exists (a :: new). rewrite He2, He, <- app_assoc. cbn [length app]. split; [lia |]. split; [reflexivity |]. split; [exact Hex |]. split; [lia |]. intros _. eapply dead_register_new; eauto.
    + assert (Hl : length (entries (memory_of h)) <= c) by apply Hg. destruct (IH h1 s2 l h' s' d c (Hlt ltac:(lia)) H1 E) as (new & Hn & He2 & Hex & Ha & Hb).
      exists (a :: new). rewrite He2, He, <- app_assoc. cbn [length app]. rewrite Hlen in Ha, Hb. split; [lia |]. split; [reflexivity |]. split; [exact Hex |]. split; [intros; apply Ha; lia | intros; apply Hb; lia].
Qed.
Lemma new_grown : forall n s l h s', holds s l -> register_new (S n) new_event s = Some (h, s') -> length (entries (memory_of h)) = S n /\ exists d c, grown h d c.
Proof.
  intros n s l h s' H E. cbn [register_new] in E. apply holds_malloc in H. destruct (malloc s) as [a s1]. cbn [fst snd] in H.
  destruct (register_holds a new_event s1 l H) as (h1 & s2 & Er & H1 & _). rewrite Er in E. cbn [bind] in E.
  destruct (register_first a new_event s1 h1 s2 eq_refl eq_refl Er) as (d & Hg & He).
  destruct (register_new_grown n h1 s2 l h s' d 4 Hg H1 E) as (new & Hn & He2 & Hex & _). rewrite He2, He, app_length. cbn. split; [lia | exact Hex].
Qed.
Lemma failure_shape : forall n k d s l h s1, holds s l -> register_new n new_event s = Some (h, s1) -> holds s1 (registered h ++ l) -> to_prepare h = true ->
  forall h' s3, register_new k h (snd (malloc s1)) = Some (h', s3) ->
  exists es s2, build_list [MakePlain n k false] s = Some (es, s2) /\ play_list (play d) [] es s2 = (s4 <- list_free [(next s1, Plain h k false)] s3 ;; Some (false, [], s4)).
Proof.
  intros n k d s l h s1 H E H1 Ht h' s3 E3. cbn [build_list build]. rewrite E. cbn [bind]. unfold malloc in *. cbn [snd] in E3.
  do 2 eexists. split; [reflexivity |]. cbn [play_list live next]. rewrite Nat.eqb_refl. cbn [orb need bind].
  match goal with |- context [play d (Plain h k false) ?s2] => assert (Ep : play d (Plain h k false) s2 = Some (false, Plain h k false, s3)) end.
  { destruct d; cbn [play header_of prepare]; rewrite Ht, E3; reflexivity. }
  rewrite Ep. cbn [bind app]. reflexivity.
Qed.
Lemma failure_leak : forall n k d s, valid s -> 1 <= k ->
  exists es s1, build_list [MakePlain n k false] s = Some (es, s1) /\
    ((exists j, 1 <= n <= 4 * 2 ^ j /\ 4 * 2 ^ j < n + k) -> play_list (play d) [] es s1 = None) /\
    (~ (exists j, 1 <= n <= 4 * 2 ^ j /\ 4 * 2 ^ j < n + k) ->
      exists s2, play_list (play d) [] es s1 = Some (false, [], s2) /\ left_behind s s2 (if n =? 0 then S k else k)).
Proof.
  intros n k d s Hv Hk. destruct (valid_holds s Hv) as (l & H). destruct (new_header n s l H) as (h & s1 & E & H1 & Ht & Hok & Hfp).
  pose proof (holds_malloc _ _ H1) as H2. assert (H2' : holds (snd (malloc s1)) (registered h ++ next s1 :: l)).
  { eapply holds_perm; [| exact H2]. cbn [malloc fst]. apply Permutation_middle. }
  destruct (register_new_holds k h (snd (malloc s1)) _ H2' Hok) as (h' & s3 & E3 & H3 & _).
  destruct (failure_shape n k d s l h s1 H E H1 Ht h' s3 E3) as (es & s2 & Eb & Ep). exists es, s2. split; [exact Eb |]. rewrite Ep. cbn [list_free].
  assert (Hn : live s3 (next s1) = true) by (eapply holds_live; [exact H3 |]; apply in_or_app; right; now left). rewrite Hn. cbn [need bind].
  destruct n as [| n].
  - cbn [register_new] in E. inversion E; subst h s1. split; [intros (j & Hj & _); lia |]. intros _. cbn [free_event header_of new_event free_pointer bind].
    assert (Hlost : length (registered h') = S k).
    { destruct k as [| k]; [lia |]. cbn [registered new_event memory_of array app] in H2'. destruct (new_grown k _ _ h' s3 H2' E3) as (He & d' & c' & Hg). unfold registered. destruct Hg as (-> & _). cbn. now rewrite He. }
    assert (H4 : holds s3 (next s :: registered h' ++ l)) by (eapply holds_perm; [| exact H3]; apply Permutation_sym, Permutation_middle).
    apply holds_release in H4. destruct H4 as (s4 & E4 & H4). rewrite E4. cbn [bind]. exists s4. split; [reflexivity |]. cbn [Nat.eqb].
    exists (registered h'). split; [exact Hlost |]. exact (holds_new s l s4 _ H H4).
  - destruct (new_grown n s l h s1 H E) as (Hlen & dd & c & Hg). destruct (register_new_grown k h _ _ h' s3 dd c Hg H2' E3) as (new & Hnew & He & _ & Hfit & Hover). rewrite Hlen in Hfit, Hover.
    pose proof Hg as (Ha & Hf & Hc & Hl & i & Hi & Hb). rewrite Hlen in Hl, Hb. cbn [free_event header_of]. rewrite Hf.
    split.
    + intros (j & (_ & Hj) & Hj2). assert (Hcj : c = 4 * 2 ^ j \/ c < 4 * 2 ^ j).
      { rewrite Hi. destruct (Nat.le_gt_cases i j) as [Hij | Hij]; [pose proof (Nat.pow_le_mono_r 2 i j ltac:(lia) Hij); lia |].
        exfalso. destruct Hb as [Hb | Hb]; [lia |]. pose proof (Nat.pow_le_mono_r 2 j (i - 1) ltac:(lia) ltac:(lia)). lia. }
      destruct (Hover ltac:(lia)) as (Hd & _). unfold memory_free. rewrite Ha, Hd. reflexivity.
    + intros Hno. assert (Hle : S n + k <= c). { destruct (Nat.le_gt_cases (S n + k) c); [assumption |]. exfalso. apply Hno. exists i. rewrite <- Hi. lia. }
      specialize (Hfit Hle). destruct Hfit as (Ha' & _). assert (H4 : holds s3 (registered h ++ next s1 :: new ++ l)).
      { eapply holds_perm; [| exact H3]. unfold registered. rewrite Ha', Ha, He. cbn [app]. constructor. rewrite <- app_assoc. apply Permutation_app_head. apply Permutation_sym, Permutation_middle. }
      destruct (memory_free_holds h s3 _ H4) as (h2 & s4 & E4 & H5 & _). rewrite E4. cbn [bind]. apply holds_release in H5. destruct H5 as (s5 & E5 & H5). rewrite E5. cbn [bind Nat.eqb].
      exists s5. split; [reflexivity |]. exists new. split; [exact Hnew |]. exact (holds_new s l s5 _ H H5).
Qed.
