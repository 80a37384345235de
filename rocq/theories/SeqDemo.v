(** A concrete event type for the examples: the data is an amplitude [d]; at relative time [k] the event adds [d + k]. *)
From Verif Require Import Base SeqModel SeqSpec SeqLifeSpec SeqRenderSpec SeqRenderProofs SeqGroupModel SeqGroupSpec SeqParModel SeqParSpec.

Definition demo_event (id start end_ : nat) (d : Z) : event Z :=
  {| ev_id := id; ev_start := start; ev_end := end_; ev_prepare := true; ev_free := true; ev_data := d |}.
Definition demo_signal (d : Z) : stage Z := fun k x => (x + (d + Z.of_nat k))%Z.
Definition demo_prepare (e : event Z) : option (event Z) := Some e.
Definition demo_generate (a c : nat) (out : list Z) (e : event Z) : option (list Z * event Z * bool) :=
  Some (mapi (demo_signal (ev_data Z e)) a (firstn (c - a) out) ++ skipn (c - a) out, e, true).
(** fails from time 3 on *)
Definition demo_generate_failing (a c : nat) (out : list Z) (e : event Z) : option (list Z * event Z * bool) :=
  Some (out, e, c <? 3).

Lemma demo_plays e pos : plays Z Z demo_prepare demo_generate e pos (demo_signal (ev_data Z e)).
Proof.
  exists (fun e' _ => ev_data Z e' = ev_data Z e). split; [reflexivity|]. intros e' p Hd. split.
  - intros _. exists e'. splits; auto. unfold same. auto.
  - intros Hp c o rest Hc _ Ho. exists e'. unfold demo_generate. rewrite (firstn_exact o rest) by auto. rewrite (skipn_exact o rest) by auto.
    rewrite Hd. splits; auto. unfold same. auto.
Qed.
Lemma demo_keep : callbacks_keep_identity Z Z demo_prepare demo_generate_failing.
Proof.
  split; [intros e e' [= <-]|intros a c o e o' e' ok [= _ <- _]]; unfold same; auto.
Qed.

Definition demo_events : list (event Z) := [demo_event 0 1 4 100; demo_event 1 2 9 200; demo_event 2 2 3 300]%Z.
Definition demo_built := run_ops Z (map (LAdd Z true) demo_events ++ [LReverse Z]) None (empty_heap Z).
Definition demo_head : option nat := match demo_built with Some (head, _) => head | None => None end.
Definition demo_heap : heap Z := match demo_built with Some (_, h) => h | None => empty_heap Z end.
Definition demo_list : list (nat * event Z) := combine [0; 1; 2] demo_events.
Lemma demo_represents : represents Z demo_heap demo_head demo_list.
Proof.
  split.
  - cbn. splits; auto. eexists; split; [reflexivity|]. splits; auto. eexists; split; [reflexivity|]. splits; auto. eexists; split; reflexivity.
  - split; [repeat constructor; cbn; intuition discriminate|repeat constructor; cbn; lia].
Qed.

(** leaves of trees *)
Definition demo_leaf_generate (a c : nat) (out : list Z) (d : Z) : option (list Z * Z * bool) :=
  Some (mapi (demo_signal d) a (firstn (c - a) out) ++ skipn (c - a) out, d, true).
Definition demo_leaf (start end_ : nat) (d : Z) : event (tree Z) :=
  {| ev_id := 0; ev_start := start; ev_end := end_; ev_prepare := true; ev_free := false; ev_data := TLeaf Z d |}.
Definition demo_group (start end_ : nat) (l : list (event (tree Z))) : event (tree Z) :=
  {| ev_id := 0; ev_start := start; ev_end := end_; ev_prepare := true; ev_free := false; ev_data := TGroup Z l |}.
Definition demo_tree : event (tree Z) :=
  demo_group 1 6 [demo_group 2 5 [demo_leaf 1 3 10; demo_leaf 0 2 20]; demo_leaf 0 3 30]%Z.
Lemma demo_leaf_plays p d dur : leaf_plays Z Z Some demo_leaf_generate p d dur (demo_signal d).
Proof.
  exists (fun _ d' _ => d' = d). split; [reflexivity|]. split.
  - intros d' pos ->. eauto.
  - intros d' pos c o rest -> _ _ Ho. exists d. unfold demo_leaf_generate. rewrite (firstn_exact o rest), (skipn_exact o rest) by auto. auto.
Qed.
Lemma demo_tree_wf : well_formed_event Z Z Some demo_leaf_generate demo_signal 2 demo_tree.
Proof.
  unfold well_formed_event. cbn -[leaf_plays]. repeat (split; [solve [auto with arith | lia]|] || constructor || lia || apply demo_leaf_plays).
Qed.

Definition single_heap {D} (e : event D) : heap D :=
  {| nodes := fun q => if q =? 0 then Some {| n_previous := None; n_next := None; n_event := e |} else None; fresh := 1 |}.
Lemma single_represents {D} (e : event D) : represents D (single_heap e) (Some 0) [(0, e)].
Proof.
  split; [|split; [repeat constructor; cbn; tauto|repeat constructor]]. cbn. split; [reflexivity|]. eexists. split; reflexivity.
Qed.

(** workers that need two steps *)
Record demo_task := { dt_a : nat; dt_c : nat; dt_block : list Z; dt_event : event Z; dt_count : nat }.
Definition demo_init a c b e := {| dt_a := a; dt_c := c; dt_block := b; dt_event := e; dt_count := 0 |}.
Definition demo_step (k : demo_task) :=
  {| dt_a := dt_a k; dt_c := dt_c k; dt_block := dt_block k; dt_event := dt_event k; dt_count := S (dt_count k) |}.
Definition demo_done (k : demo_task) := 2 <=? dt_count k.
Definition demo_result (k : demo_task) : list Z * event Z * bool :=
  let e := if ev_prepare Z (dt_event k) then prepared Z (dt_event k) else dt_event k in
  match demo_generate (dt_a k) (dt_c k) (dt_block k) e with Some r => r | None => ([], dt_event k, false) end.
Lemma demo_implements : implements_callbacks Z Z demo_task demo_prepare demo_generate demo_init demo_step demo_done demo_result.
Proof.
  intros a c b e e1 r He Hr. do 2 (apply computes_step; [reflexivity|]).
  replace r with (demo_result (demo_step (demo_step (demo_init a c b e)))); [apply computes_done; reflexivity|].
  unfold demo_result. cbn [dt_a dt_c dt_block dt_event demo_step demo_init].
  destruct (ev_prepare Z e); cbn in He; injection He as <-; rewrite Hr; reflexivity.
Qed.
Lemma demo_additive d : additive Z 0%Z Z.add (demo_signal d).
Proof. intros k x. unfold demo_signal. lia. Qed.
