From Verif Require Import Base SeqModel SeqSpec SeqLifeSpec SeqRenderSpec EvModel EvSpec.
Open Scope nat_scope.

(** ** event memory *)
Definition memory_ok (m : memory) (registered : list registration) (promised : nat) : Prop :=
  match m_data m with
  | None => registered = [] /\ promised = 0
  | Some data => m_free m = true /\ 0 < length data /\ m_used m = length registered /\ length registered + promised <= length data /\
    (forall i, i < length registered -> nth_error data i = option_map Some (nth_error registered i))
  end.
Lemma memory_ok_less m r p p' : p' <= p -> memory_ok m r p -> memory_ok m r p'.
Proof. unfold memory_ok. destruct (m_data m); [intros h (h1 & h2 & h3 & h4 & h5); splits; auto; lia|intros h [h1 h2]; split; auto; lia]. Qed.
Lemma fixed_ok m r reg p : memory_ok m reg p -> (exists data, m_data m = Some data /\ length reg < length data) ->
  exists m', memory_fixed_add m r = Some m' /\ memory_ok m' (reg ++ [r]) (p - 1) /\ m_free m' = m_free m.
Proof.
  intros h (data & hd & hl). unfold memory_ok in h. rewrite hd in h. destruct h as (h1 & h2 & h3 & h4 & h5).
  unfold memory_fixed_add. rewrite hd. cbn [bind]. destruct (aset_some data (m_used m) (Some r)) as [data' e]; [lia|]. rewrite e. cbn [bind].
  eexists. split; [reflexivity|]. split; [|reflexivity]. pose proof (aset_length _ _ _ _ e) as el. unfold memory_ok. cbn. rewrite app_length. cbn [length].
  splits; auto; try lia.
  intros i hi. rewrite (aset_get _ _ _ _ _ e). bd.
  - subst i. rewrite nth_error_app2 by lia. rewrite h3, Nat.sub_diag. reflexivity.
  - rewrite nth_error_app1 by lia. apply h5. lia.
Qed.
Lemma resize_ok ok m data reg p n : m_data m = Some data -> memory_ok m reg p -> length data < n ->
  exists s m', memory_resize ok m data n = Some (s, m') /\ (s = ok) /\ (s = false -> m' = m) /\
    (s = true -> memory_ok m' reg (n - length reg) /\ exists data', m_data m' = Some data' /\ length data' = n).
Proof.
  intros hd h hn. unfold memory_ok in h. rewrite hd in h. destruct h as (h1 & h2 & h3 & h4 & h5).
  unfold memory_resize. destruct (Nat.eqb_spec n 0) as [q|q]; [lia|]. destruct ok.
  - eexists _, _. split; [reflexivity|]. split; [reflexivity|]. split; [discriminate|]. intros _.
    assert (hl : length (firstn n data ++ repeat None (n - length data)) = n) by (rewrite app_length, firstn_length, repeat_length; lia).
    split; [|eexists; split; [reflexivity|exact hl]]. unfold memory_ok. cbn [m_data m_used m_free]. rewrite hl. destruct (Nat.ltb_spec n (m_used m)); [lia|].
    splits; auto; try lia. intros i hi. rewrite nth_error_app1 by (rewrite firstn_length; lia). rewrite nth_error_firstn by lia. auto.
  - eexists _, _. split; [reflexivity|]. splits; auto. discriminate.
Qed.
Lemma add_ok ok m r reg p : memory_ok m reg p -> exists s m', memory_add ok m r = Some (s, m') /\ (ok = true -> s = true) /\
  memory_ok m' (if s then reg ++ [r] else reg) (if s then p - 1 else p).
Proof.
  intros h. unfold memory_add. destruct (m_data m) as [data|] eqn:hd.
  - pose proof h as h'. unfold memory_ok in h'. rewrite hd in h'. destruct h' as (h1 & h2 & h3 & h4 & h5).
    destruct (Nat.leb_spec (m_used m) (length data)); [|lia]. cbn [need bind]. destruct (Nat.eqb_spec (length data - m_used m) 0) as [q|q].
    + destruct (resize_ok ok m data reg p (2 * length data) hd h) as (s & m' & e & es & e1 & e2); [lia|].
      rewrite e. cbn [bind]. destruct s.
      * destruct (e2 eq_refl) as [k (data' & k1 & k2)]. destruct (fixed_ok m' r reg _ k) as (m2 & f1 & f2 & f3).
        -- exists data'. split; auto. lia.
        -- rewrite f1. cbn [bind]. exists true, m2. splits; auto. eapply memory_ok_less; [|exact f2]. lia.
      * rewrite (e1 eq_refl). exists false, m. splits; auto. intros ->. discriminate.
    + cbn [bind]. destruct (fixed_ok m r reg _ h) as (m2 & f1 & f2 & f3).
      * exists data. split; auto. lia.
      * rewrite f1. cbn [bind]. exists true, m2. splits; auto.
  - assert (h' : reg = [] /\ p = 0) by (unfold memory_ok in h; rewrite hd in h; exact h). destruct h' as [-> ->]. unfold memory_new. destruct ok; cbn [bind].
    + destruct (fixed_ok {| m_data := Some (repeat None 4); m_used := 0; m_free := true |} r [] 4) as (m2 & f1 & f2 & f3).
      * unfold memory_ok. cbn. splits; auto; try lia.
      * eexists. split; [reflexivity|]. cbn. lia.
      * rewrite f1. cbn [bind]. exists true, m2. splits; auto. eapply memory_ok_less; [|exact f2]. lia.
    + exists false, m. splits; auto.
Qed.
Lemma ensure_ok ok m n reg p : 0 < n -> memory_ok m reg p -> exists s m', memory_ensure ok m n = Some (s, m') /\ (ok = true -> s = true) /\
  memory_ok m' reg (if s then Nat.max p n else p).
Proof.
  intros hn h. unfold memory_ensure. destruct (m_data m) as [data|] eqn:hd.
  - pose proof h as h'. unfold memory_ok in h'. rewrite hd in h'. destruct h' as (h1 & h2 & h3 & h4 & h5).
    destruct (Nat.leb_spec (m_used m) (length data)); [|lia]. cbn [need bind]. destruct (Nat.ltb_spec (length data - m_used m) n).
    + destruct (resize_ok ok m data reg p (length data + (n - (length data - m_used m))) hd h) as (s & m' & e & es & e1 & e2); [lia|].
      exists s, m'. split; [exact e|]. split; [congruence|]. destruct s; [|rewrite (e1 eq_refl); exact h].
      eapply memory_ok_less; [|exact (proj1 (e2 eq_refl))]. lia.
    + exists true, m. splits; auto. unfold memory_ok. rewrite hd. splits; auto. lia.
  - assert (h' : reg = [] /\ p = 0) by (unfold memory_ok in h; rewrite hd in h; exact h). destruct h' as [-> ->]. unfold memory_new. destruct ok.
    + eexists _, _. split; [reflexivity|]. split; auto. unfold memory_ok. cbn. rewrite repeat_length. splits; auto; try lia.
    + exists false, m. splits; auto.
Qed.
Lemma free_ok m reg p : memory_ok m reg p -> exists m', memory_free m = Some (reg, m') /\ memory_ok m' [] 0.
Proof.
  intros h. unfold memory_free. destruct (m_data m) as [data|] eqn:hd.
  - pose proof h as h'. unfold memory_ok in h'. rewrite hd in h'. destruct h' as (h1 & h2 & h3 & h4 & h5).
    match goal with |- context [for_ 0 _ ?body _] => destruct (for_inv (fun i calls => calls = firstn i reg) body 0 (m_used m) []) as [calls [e hc]] end.
    + lia.
    + reflexivity.
    + intros i calls hi ->. unfold aget. rewrite h5 by lia. destruct (nth_error_some reg i) as [r hr]; [lia|]. rewrite hr. cbn [option_map bind].
      eexists. split; [reflexivity|]. clear - hr. revert i hr. induction reg as [|x reg IH]; intros [|i] hr; cbn in *; try discriminate; [congruence|]. f_equal. auto.
    + rewrite e. cbn [bind]. rewrite hc, h3, firstn_all. eexists. split; [reflexivity|]. split; reflexivity.
  - assert (h' : reg = [] /\ p = 0) by (unfold memory_ok in h; rewrite hd in h; exact h). destruct h' as [-> ->]. exists m. split; auto.
Qed.
Lemma rules_mono ops : forall p p', p' <= p -> memory_rules ops p' -> memory_rules ops p.
Proof.
  induction ops as [|[ok r|ok n|r|] ops IH]; intros p p' hp; cbn [memory_rules]; auto.
  - apply IH. lia.
  - intros [h1 h2]. split; auto. destruct ok; (eapply IH; [|exact h2]; lia).
  - intros [h1 h2]. split; [lia|]. eapply IH; [|exact h2]. lia.
Qed.
Lemma memory_correct ops : forall m reg p calls, memory_ok m reg p -> memory_rules ops p ->
  exists m' calls' status reg', run_memory ops m = Some (m', calls', status) /\
    memory_spec ops status reg p calls = Some (reg', calls ++ calls') /\ (exists p', memory_ok m' reg' p').
Proof.
  induction ops as [|op rest IH]; intros m reg p calls h hr.
  - exists m, [], [], reg. cbn. rewrite app_nil_r. splits; auto. eauto.
  - cbn [run_memory]. destruct op as [ok r|ok n|r|]; cbn [memory_rules] in hr; cbn [memory_spec].
    + destruct (add_ok ok m r reg p h) as (s & m1 & e & es & k). rewrite e. cbn [bind].
      destruct (IH m1 (if s then reg ++ [r] else reg) (p - 1) calls) as (m2 & c2 & st & reg2 & e2 & e3 & e4); auto.
      { destruct s; auto. eapply memory_ok_less; [|exact k]. lia. }
      rewrite e2. cbn [bind]. destruct s.
      * exists m2, c2, (true :: st), reg2. splits; auto.
      * destruct (IH m1 reg p calls) as (m3 & c3 & st3 & reg3 & f2 & f3 & f4); auto.
        { eapply rules_mono; [|exact hr]. lia. }
        rewrite e2 in f2. injection f2 as <- <- <-. exists m2, c2, (false :: st), reg3. splits; auto.
    + destruct hr as [hn hr]. destruct (ensure_ok ok m n reg p hn h) as (s & m1 & e & es & k). rewrite e. cbn [bind].
      destruct (Nat.eqb_spec n 0) as [q|q]; [lia|].
      assert (hr' : memory_rules rest (if s then Nat.max p n else p)).
      { destruct s; [destruct ok; auto|destruct ok; [discriminate (es eq_refl)|auto]].
        eapply rules_mono; [|exact hr]. lia. }
      destruct (IH m1 reg _ calls k hr') as (m2 & c2 & st & reg2 & e2 & e3 & e4). rewrite e2. cbn [bind].
      exists m2, c2, (s :: st), reg2. splits; auto. destruct s; auto.
    + destruct hr as [hp hr]. destruct (Nat.eqb_spec p 0) as [q|q]; [lia|]. destruct (fixed_ok m r reg p h) as (m1 & e & k & _).
      { unfold memory_ok in h. destruct (m_data m) as [data|]; [exists data; split; auto; lia|lia]. }
      rewrite e. cbn [bind]. destruct (IH m1 _ _ calls k hr) as (m2 & c2 & st & reg2 & e2 & e3 & e4). rewrite e2. cbn [bind].
      exists m2, c2, st, reg2. splits; auto.
    + destruct (free_ok m reg p h) as (m1 & e & k). rewrite e. cbn [bind].
      destruct (IH m1 [] 0 (calls ++ reg) k hr) as (m2 & c2 & st & reg2 & e2 & e3 & e4). rewrite e2. cbn [bind].
      exists m2, (reg ++ c2), st, reg2. splits; auto. rewrite e3, app_assoc. reflexivity.
Qed.

(** ** blocks *)
Lemma block_loop_tiles T generate count resolution start rest : forall i (s : T),
  run_tiles T generate (repeat resolution count ++ rest) i (i + start) s =
  ('(s, ok, i) <- block_loop T generate count resolution start i s ;; if (ok : bool) then run_tiles T generate rest i (i + start) s else Some (s, false)).
Proof.
  induction count; intros i s; cbn [repeat app run_tiles block_loop]; [reflexivity|].
  destruct (generate resolution i (i + start) s) as [[s1 ok]|]; [|reflexivity]. cbn [bind]. destruct ok; [|reflexivity].
  replace (i + start + resolution) with (i + resolution + start) by lia. apply IHcount.
Qed.
Lemma list_sum_repeat n k : list_sum (repeat n k) = k * n.
Proof. induction k; cbn [repeat list_sum fold_right]; [reflexivity|]. fold (list_sum (repeat n k)). rewrite IHk. lia. Qed.
Lemma block_generate_tiles resolution start end_ : start < end_ -> 0 < resolution ->
  exists sizes, list_sum sizes = end_ - start /\ Forall (fun n => 0 < n <= resolution) sizes /\
    (exists count rest, sizes = repeat (Nat.min resolution (end_ - start)) count ++ rest /\ length rest <= 1) /\
    forall T generate (s : T), block_generate T generate resolution start end_ s = run_tiles T generate sizes 0 start s.
Proof.
  intros h hr. set (d := end_ - start). set (res := Nat.min resolution d). assert (hd : 0 < d) by (subst d; lia). assert (hres : 0 < res) by (subst res; lia).
  exists (repeat res (d / res) ++ (if d mod res =? 0 then [] else [d mod res])).
  pose proof (Nat.div_mod d res ltac:(lia)) as hdm. pose proof (Nat.mod_upper_bound d res ltac:(lia)) as hm. splits.
  - rewrite list_sum_app, list_sum_repeat. destruct (Nat.eqb_spec (d mod res) 0); cbn [list_sum fold_right]; lia.
  - apply Forall_app. split.
    + apply Forall_forall. intros x hx. apply repeat_spec in hx. subst x. lia.
    + destruct (Nat.eqb_spec (d mod res) 0); constructor; auto. lia.
  - eexists _, _. split; [reflexivity|]. destruct (d mod res =? 0); cbn; lia.
  - intros T generate s. unfold block_generate. destruct (Nat.leb_spec start end_); [|lia]. cbn [need bind]. fold d.
    replace (if d <? resolution then d else resolution) with res by (subst res; bd; lia).
    destruct (Nat.eqb_spec res 0); [lia|]. cbn [negb need bind].
    rewrite <- (Nat.add_0_l start) at 2. rewrite block_loop_tiles.
    destruct (block_loop T generate (d / res) res start 0 s) as [[[s1 ok] i]|]; [|reflexivity]. cbn [bind]. destruct ok; [|reflexivity].
    destruct (d mod res =? 0); cbn [negb run_tiles]; [reflexivity|]. destruct (generate _ i (i + start) s1) as [[s2 ok]|]; [|reflexivity]. cbn [bind]. destruct ok; reflexivity.
Qed.
