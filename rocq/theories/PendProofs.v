From Coq Require Import QArith Qround Qabs Lqa.
From Verif Require Import Base PathModel PathSpec PathProofs Path2Proofs PendModel PendSpec.
Close Scope Q_scope.

(** ** end *)
Definition last_end (start : point) (l : list segment) : option point :=
  match rev l with [] => Some start | s :: _ => q <- aget (points s) (points_count s - 1) ;; if Qeq_bool size_max (px q) then aget (points s) 0 else Some q end.
Lemma qeq_size q : (px q < size_max)%Q -> Qeq_bool size_max (px q) = false.
Proof. intros h. destruct (Qeq_bool size_max (px q)) eqn:e; [|reflexivity]. apply Qeq_bool_iff in e. lra. Qed.
Lemma prepare_cons root start s l : prepare_segments root start (s :: l) =
  (ps <- aset (points s) 0 start ;; s <- run_prepare root (mkseg (points_count s) ps (generate s) (PathModel.prepare s)) ;; start <- aget (points s) (points_count s - 1) ;;
   l <- prepare_segments root start l ;; Some (s :: l)).
Proof. reflexivity. Qed.
Lemma prepare_one root start g s l segs : prepare_segments root start (gbuild g :: l) = Some (s :: segs) ->
  aget (points s) 0 = Some start /\
  match target g with
  | Some q => aget (points s) (points_count s - 1) = Some q /\ prepare_segments root q l = Some segs
  | None => aget (points s) (points_count s - 1) = Some (size_max, py start) /\ prepare_segments root (size_max, py start) l = Some segs
  end.
Proof.
  destruct g as [[x y]|[x y]| |[cx cy] [x y]|[cx cy] [dx dy] [x y]|[x y] c]; cbn [gbuild px py fst snd target]; intros h.
  1-5: cbn in h; destruct (prepare_segments _ _ _) as [r|] eqn:e; [|discriminate]; cbn in h; injection h as <- <-; cbn; auto.
  unfold seg_arc in h. destruct (Qeq_bool c 0).
  - cbn in h; destruct (prepare_segments _ _ _) as [r|] eqn:e; [|discriminate]; cbn in h; injection h as <- <-; cbn; auto.
  - rewrite prepare_cons in h. cbn [seg_bezier1 points points_count generate PathModel.prepare aset bind] in h.
    unfold run_prepare at 1 in h. cbn [points points_count generate PathModel.prepare aget nth_error bind aset] in h.
    destruct (perpendicular_point root start (x, y) _) as [m|]; [|discriminate]. cbn [bind aset points points_count aget nth_error Nat.sub] in h.
    destruct (prepare_segments _ _ _) as [r|] eqn:e; [|discriminate]; cbn in h; injection h as <- <-; cbn; auto.
Qed.
Lemma prepare_none root start g l : prepare_segments root start (gbuild g :: l) = Some [] -> False.
Proof.
  cbn [prepare_segments]. destruct (aset _ _ _); [|discriminate]. cbn [bind]. destruct (run_prepare _ _); [|discriminate]. cbn [bind]. destruct (aget _ _); [|discriminate]. cbn [bind].
  destruct (prepare_segments _ _ _); discriminate.
Qed.
Lemma last_end_cons start s l : l <> [] -> forall q, last_end start (s :: l) = last_end q l.
Proof. intros hl q. unfold last_end. cbn [rev]. destruct (rev l) eqn:e; [|reflexivity]. apply (f_equal (@rev _)) in e. rewrite rev_involutive in e. cbn in e. congruence. Qed.
Lemma prepare_last root l : forall start segs, regular l -> prepare_segments root start (map gbuild l) = Some segs ->
  last_end start segs = Some (last_point start l) /\ length segs = length l.
Proof.
  induction l as [|g l IH]; intros start segs hr h; [injection h as <-; split; reflexivity|].
  destruct segs as [|s segs]; [exfalso; eapply prepare_none; exact h|]. cbn [map] in h. apply prepare_one in h. destruct h as [h0 h]. destruct hr as [hr1 hr2].
  cbn [last_point]. destruct (target g) as [q|] eqn:eg.
  - destruct h as [h1 h2]. destruct (IH q segs hr2 h2) as [i1 i2]. split; [|cbn; lia]. destruct segs as [|s' segs].
    + unfold last_end. cbn [rev app]. rewrite h1. cbn [bind]. rewrite (qeq_size q hr1). exact i1.
    + rewrite (last_end_cons start s (s' :: segs) ltac:(discriminate) q). exact i1.
  - subst l. destruct h as [h1 h2]. injection h2 as <-. split; [|reflexivity]. unfold last_end. cbn [rev app]. rewrite h1. cbn [bind px fst]. change (Qeq_bool size_max size_max) with true. cbn iota. exact h0.
Qed.
Lemma path_end_last p start : segments p <> [] -> path_end p = last_end start (segments p).
Proof.
  intros h. unfold path_end, last_end. destruct (segments p) as [|s l] eqn:e using rev_ind; [congruence|]. clear IHl. rewrite rev_app_distr. cbn [rev app]. rewrite app_length. cbn [length].
  replace (length l + 1 =? 0) with false by (symmetry; apply Nat.eqb_neq; lia). cbn [negb need bind]. replace (length l + 1 - 1) with (length l) by lia.
  unfold aget at 1. rewrite nth_error_app2, Nat.sub_diag by lia. cbn [nth_error bind]. reflexivity.
Qed.
Lemma ends_correct root l p : l <> [] -> regular l -> path_set root (map gbuild l) = Some p ->
  path_start p = Some zero /\ path_end p = Some (last_point zero l) /\
  ((0 <= px (last_point zero l))%Q -> path_size p = Some (Qfloor (px (last_point zero l)))).
Proof.
  intros hl hr h. unfold path_set in h. destruct (prepare_segments root zero (map gbuild l)) as [segs|] eqn:e; [|discriminate]. injection h as <-.
  destruct (prepare_last root l zero segs hr e) as [h1 h2].
  assert (hs : segs <> []) by (destruct l; [congruence|]; destruct segs; [discriminate h2|discriminate]).
  assert (he : path_end (mkpath segs 0 0) = Some (last_point zero l)) by (rewrite (path_end_last (mkpath segs 0 0) zero hs); exact h1).
  split; [|split; [exact he|]].
  - destruct l as [|g l]; [congruence|]. destruct segs as [|s segs]; [congruence|]. cbn [map] in e. apply prepare_one in e. destruct e as [e _]. unfold path_start. cbn [segments aget nth_error bind]. exact e.
  - intros h0. unfold path_size. rewrite he. cbn [bind]. apply to_size_floor; [exact h0|].
    assert (hlt : forall l q, regular l -> (px q < size_max)%Q -> (px (last_point q l) < size_max)%Q).
    { clear. induction l as [|g l IH]; intros q hr hq; [exact hq|]. destruct hr as [h1 h2]. cbn [last_point]. destruct (target g); apply IH; auto. }
    specialize (hlt l zero hr ltac:(reflexivity)). assert (size_max < inject_Z two64)%Q by reflexivity. lra.
Qed.

(** ** repeated preparation *)
Lemma prepare_again root start l segs : Forall (fun s => PathModel.prepare s <> PrepareArc) l -> prepare_segments root start l = Some segs -> prepare_segments root start segs = Some segs.
Proof.
  revert start segs. induction l as [|s l IH]; intros start segs hp h; [injection h as <-; reflexivity|]. inversion hp as [|x y hs hl]; subst.
  cbn [prepare_segments] in h. destruct (aset (points s) 0 start) as [ps|] eqn:e1; [|discriminate]. cbn [bind] in h.
  destruct (run_prepare root _) as [s'|] eqn:e2; [|discriminate]. cbn [bind] in h. destruct (aget (points s') (points_count s' - 1)) as [q|] eqn:e3; [|discriminate]. cbn [bind] in h.
  destruct (prepare_segments root q l) as [segs'|] eqn:e4; [|discriminate]. cbn [bind] in h. injection h as <-.
  destruct (points s) as [|p0 rest] eqn:ep; [discriminate|]. cbn in e1. injection e1 as <-.
  assert (hrun : aset (points s') 0 start = Some (points s') /\ run_prepare root s' = Some s').
  { unfold run_prepare in e2. cbn [PathModel.prepare points generate points_count aget nth_error bind] in e2. destruct (PathModel.prepare s) eqn:epr.
    - injection e2 as <-. split; [reflexivity|]. unfold run_prepare. reflexivity.
    - destruct rest as [|p1 rest]; [discriminate|]. cbn in e2. injection e2 as <-. split; reflexivity.
    - congruence.
    - destruct (generate s) eqn:eg; try discriminate. destruct rest as [|p1 rest]; [discriminate|]. cbn in e2. injection e2 as <-. split; reflexivity. }
  destruct hrun as [h1 h2]. cbn [prepare_segments]. rewrite h1. cbn [bind]. replace (mkseg (points_count s') (points s') (generate s') (PathModel.prepare s')) with s' by (destruct s'; reflexivity).
  rewrite h2. cbn [bind]. rewrite e3. cbn [bind]. rewrite (IH q segs' hl e4). reflexivity.
Qed.
Lemma set_again root l p : Forall (fun s => PathModel.prepare s <> PrepareArc) l -> path_set root l = Some p -> path_set root (segments p) = Some p.
Proof.
  intros hl h. unfold path_set in *. destruct (prepare_segments root zero l) as [segs|] eqn:e; [|discriminate]. injection h as <-. cbn [segments]. rewrite (prepare_again root zero l segs hl e). reflexivity.
Qed.

(** ** segments without data *)
Lemma plain_addresses l : addresses (plain l) = [].
Proof. unfold addresses, plain. induction l; cbn; auto. Qed.
Lemma plain_fst l : map fst (plain l) = l.
Proof. unfold plain. rewrite map_map. cbn. apply map_id. Qed.
Lemma plain_combine (l m : list segment) : length m = length l -> combine m (map snd (plain l)) = plain m.
Proof. revert l. induction m as [|s m IH]; intros [|t l] h; try discriminate; [reflexivity|]. cbn in *. f_equal. apply IH. lia. Qed.
Lemma prepare_length root l : forall start segs, prepare_segments root start l = Some segs -> length segs = length l.
Proof.
  induction l as [|s l IH]; intros start segs h; [injection h as <-; reflexivity|]. cbn [prepare_segments] in h. destruct (aset _ _ _); [|discriminate]. cbn [bind] in h.
  destruct (run_prepare _ _); [|discriminate]. cbn [bind] in h. destruct (aget _ _) as [q|]; [|discriminate]. cbn [bind] in h. destruct (prepare_segments root q l) eqn:e; [|discriminate].
  cbn [bind] in h. injection h as <-. cbn. f_equal. eapply IH; exact e.
Qed.
Lemma build_no_arc parts : Forall (fun s => PathModel.prepare s <> PrepareArc) (map build parts).
Proof. induction parts as [|[]]; cbn; constructor; auto; discriminate. Qed.
Lemma segments_get_plain root fuel l p live a b out : path_set root l = Some p -> get_all fuel p [(a, b)] = Some [out] ->
  segments_get root fuel (plain l) live a b (repeat 0%Q (Z.to_nat (b - a))) = Some (out, plain (segments p), live).
Proof.
  intros h hg. unfold segments_get. rewrite plain_addresses, plain_fst. cbn [forallb need bind]. rewrite h. cbn [bind]. cbn [get_all] in hg.
  destruct (path_get fuel p a b _ 0) as [[[e o] p']|]; [|discriminate]. cbn [bind] in *. destruct e; [|discriminate]. cbn in hg. injection hg as ->. cbn [need bind release_all].
  rewrite plain_combine; [reflexivity|]. unfold path_set in h. destruct (prepare_segments root zero l) as [segs|] eqn:es; [|discriminate]. injection h as <-. eapply prepare_length; exact es.
Qed.
Lemma get_again root fuel parts : parts <> [] -> ascending 0 parts -> forall ws live, Forall (fun w => 0 <= fst w <= snd w)%Z ws -> forall p, path_set root (map build parts) = Some p ->
  forall l, path_set root l = Some p ->
  exists outs a, get_repeatedly root fuel (plain l) live ws = Some (outs, a, live) /\ Forall2 (Forall2 Qeq) outs (map (samples_of (pieces_of 0 0 parts)) ws).
Proof.
  intros hp ha. induction ws as [|[a b] ws IH]; intros live hw p hs l hl; [eexists [], _; split; [reflexivity|constructor]|].
  inversion hw as [|x y h1 h2]; subst. cbn [fst snd] in h1.
  destruct (path_windows root fuel parts [(a, b)] hp ha) as (p' & outs & e1 & e2 & e3); [cbn; repeat split; lia|]. rewrite hs in e1. injection e1 as <-.
  inversion e3 as [|o x' outs' y' hv hr]; subst. inversion hr; subst. cbn [get_repeatedly]. rewrite (segments_get_plain root fuel l p live a b o hl e2). cbn [bind].
  destruct (IH live h2 p hs (segments p)) as (outs & r & e4 & e5); [eapply set_again; [apply build_no_arc|exact hs]|].
  rewrite e4. cbn [bind]. eexists _, _. split; [reflexivity|]. constructor; assumption.
Qed.
Lemma get_repeated root fuel parts ws live : parts <> [] -> ascending 0 parts -> Forall (fun w => 0 <= fst w <= snd w)%Z ws ->
  exists outs a, get_repeatedly root fuel (plain (map build parts)) live ws = Some (outs, a, live) /\ Forall2 (Forall2 Qeq) outs (map (samples_of (pieces_of 0 0 parts)) ws).
Proof.
  intros hp ha hw. destruct (path_windows root fuel parts [] hp ha I) as (p & outs & e1 & _). eapply get_again; eauto.
Qed.

(** ** segments with data *)
Lemma remove_not_in d live : existsb (Nat.eqb d) (remove Nat.eq_dec d live) = false.
Proof. destruct (existsb _ _) eqn:e; [|reflexivity]. apply existsb_exists in e. destruct e as (x & h1 & h2). apply Nat.eqb_eq in h2. subst x. exfalso. eapply remove_In. exact h1. Qed.
Lemma release_all_in l : forall live live' d, release_all l live = Some live' -> In d live' -> In d live /\ ~ In d l.
Proof.
  induction l as [|c l IH]; intros live live' d h hd; [injection h as <-; split; [exact hd|intros []]|]. cbn [release_all] in h. unfold release in h.
  destruct (existsb (Nat.eqb c) live); [|discriminate]. cbn [bind] in h. destruct (IH _ _ _ h hd) as [h1 h2]. apply in_remove in h1. destruct h1 as [h1 h3]. split; [exact h1|]. intros [->|hi]; [congruence|auto].
Qed.
Lemma release_all_rest l : forall live live', release_all l live = Some live' -> NoDup l /\ incl l live /\ forall d, In d live -> ~ In d l -> In d live'.
Proof.
  induction l as [|c l IH]; intros live live' h; [injection h as <-; split; [constructor|]; split; [intros ? []|auto]|]. cbn [release_all] in h. unfold release in h.
  destruct (existsb (Nat.eqb c) live) eqn:e; [|discriminate]. cbn [bind] in h. destruct (IH _ _ h) as (h1 & h2 & h3). split; [|split].
  - constructor; [|exact h1]. intros hi. apply h2 in hi. eapply remove_In; exact hi.
  - intros d [<-|hd]; [apply existsb_exists in e; destruct e as (x & hx & he); apply Nat.eqb_eq in he; subst; exact hx|]. apply h2 in hd. apply in_remove in hd. tauto.
  - intros d hd hn. apply h3; [apply in_in_remove; [intros ->; apply hn; left; reflexivity|exact hd]|]. intros hi. apply hn. right. exact hi.
Qed.
Lemma release_all_some l : forall live, NoDup l -> incl l live -> exists live', release_all l live = Some live'.
Proof.
  induction l as [|c l IH]; intros live hn hi; [eexists; reflexivity|]. inversion hn as [|x y h1 h2]; subst. cbn [release_all]. unfold release.
  replace (existsb (Nat.eqb c) live) with true by (symmetry; apply existsb_exists; exists c; split; [apply hi; left; reflexivity|apply Nat.eqb_refl]). cbn [bind]. apply IH; [exact h2|].
  intros d hd. apply in_in_remove; [intros ->; contradiction|apply hi; right; exact hd].
Qed.
Lemma segments_get_data root fuel a live x y out out' a' live' : segments_get root fuel a live x y out = Some (out', a', live') ->
  addresses a' = addresses a /\ NoDup (addresses a) /\ (forall d, In d live' <-> In d live /\ ~ In d (addresses a)) /\ length a' = length a.
Proof.
  intros h. unfold segments_get in h. destruct (forallb _ _); [|discriminate]. cbn [need bind] in h. destruct (path_set root (map fst a)) as [p|] eqn:ep; [|discriminate]. cbn [bind] in h.
  destruct (path_get _ _ _ _ _ _) as [[[e o] p']|]; [|discriminate]. cbn [bind] in h. destruct e; [|discriminate]. cbn [need bind] in h.
  destruct (release_all (addresses a) live) as [lv|] eqn:er; [|discriminate]. cbn [bind] in h. injection h as <- <- <-.
  assert (hl : length (segments p) = length a).
  { unfold path_set in ep. destruct (prepare_segments root zero (map fst a)) as [segs|] eqn:es; [|discriminate]. injection ep as <-. cbn [segments]. apply prepare_length in es. rewrite map_length in es. exact es. }
  split; [|split; [|split]].
  - clear - hl. unfold addresses. f_equal. revert hl. generalize (segments p) as l. induction a as [|[s d] a IH]; intros [|t l] h; try discriminate; [reflexivity|]. cbn in *. f_equal. apply IH. lia.
  - apply (release_all_rest _ _ _ er).
  - intros d. split; [apply (release_all_in _ _ _ _ er)|]. intros [h1 h2]. destruct (release_all_rest _ _ _ er) as (_ & _ & h3). auto.
  - rewrite combine_length, map_length. lia.
Qed.
Lemma segments_get_twice root fuel a live x y out out' a' live' u v out2 : segments_get root fuel a live x y out = Some (out', a', live') -> addresses a <> [] ->
  segments_get root fuel a' live' u v out2 = None.
Proof.
  intros h hne. destruct (segments_get_data _ _ _ _ _ _ _ _ _ _ h) as (h1 & h2 & h3 & _). unfold segments_get at 1. rewrite h1. destruct (addresses a) as [|d l] eqn:e; [congruence|]. cbn [forallb].
  replace (existsb (Nat.eqb d) live') with false; [reflexivity|]. symmetry. destruct (existsb (Nat.eqb d) live') eqn:ex; [|reflexivity]. apply existsb_exists in ex. destruct ex as (k & hk & he). apply Nat.eqb_eq in he. subst k.
  apply h3 in hk. exfalso. apply (proj2 hk). left. reflexivity.
Qed.

(** ** curves prepared twice *)
Lemma qlt_true a b : (a < b)%Q -> qlt a b = true.
Proof. intros h. unfold qlt. destruct (Qle_bool b a) eqn:e; [apply Qle_bool_iff in e; lra|reflexivity]. Qed.
Lemma qlt_false a b : (b <= a)%Q -> qlt a b = false.
Proof. intros h. unfold qlt. apply Qle_bool_iff in h. rewrite h. reflexivity. Qed.
Lemma qeqb_false a b : ~ (a == b)%Q -> Qeq_bool a b = false.
Proof. intros h. destruct (Qeq_bool a b) eqn:e; [apply Qeq_bool_iff in e; contradiction|reflexivity]. Qed.
Lemma perpendicular_linear root p q : (px p < px q)%Q -> ~ (py p == py q)%Q ->
  exists k, ~ (k == 0)%Q /\ forall c m, perpendicular_point root p q c = Some m -> (py m == (py p + py q) / 2 + c * k)%Q.
Proof.
  destruct p as [x0 y0], q as [x1 y1]. cbn [px py fst snd]. intros hw hh. unfold perpendicular_point. cbn [px py fst snd].
  rewrite (qeqb_false 0 (-1 * (y1 - y0))) by lra. rewrite (qeqb_false 0 (x1 - x0)) by lra. rewrite (qlt_true 0 (x1 - x0)) by lra.
  destruct (Q_dec y0 y1) as [[hlt|hgt]|heq]; [| |contradiction].
  - rewrite (qlt_false 0 (-1 * (y1 - y0))) by lra.
    set (t1x := ((x0 - (x0 + x1) / 2) / (-1 * (y1 - y0)))%Q). set (t1y := ((y1 - (y0 + y1) / 2) / (x1 - x0))%Q).
    set (t2x := ((x1 - (x0 + x1) / 2) / (-1 * (y1 - y0)))%Q). set (t2y := ((y0 - (y0 + y1) / 2) / (x1 - x0))%Q).
    assert (hw' : ~ (x1 - x0 == 0)%Q) by lra. assert (hh' : ~ (y1 - y0 == 0)%Q) by lra.
    assert (e1 : (t1x == (x1 - x0) / (2 * (y1 - y0)))%Q) by (unfold t1x; field; lra). assert (e2 : (t1y == (y1 - y0) / (2 * (x1 - x0)))%Q) by (unfold t1y; field; lra).
    assert (e3 : (t2x == - ((x1 - x0) / (2 * (y1 - y0))))%Q) by (unfold t2x; field; lra). assert (e4 : (t2y == - ((y1 - y0) / (2 * (x1 - x0))))%Q) by (unfold t2y; field; lra).
    assert (p1 : (0 < t1x)%Q) by (rewrite e1; apply Qlt_shift_div_l; lra).
    assert (hn : (t2x == - t1x)%Q) by (rewrite e3, e1; reflexivity). assert (hn' : (t2y == - t1y)%Q) by (rewrite e4, e2; reflexivity).
    destruct (Qle_bool t1x t1y) eqn:b1, (Qle_bool t2y t2x) eqn:b2.
    + exists ((t2x - t1x) * (x1 - x0) / 2)%Q. split.
      * assert (hp : (0 < t1x * (x1 - x0))%Q) by (apply Qmult_lt_0_compat; lra).
        intros hz. assert (hz2 : ((t2x - t1x) * (x1 - x0) / 2 == - (t1x * (x1 - x0)))%Q) by (rewrite hn; field). rewrite hz in hz2. lra.
      * intros c m. destruct (Qeq_bool 0 c) eqn:ec; [apply Qeq_bool_iff in ec; intros h; injection h as <-; cbn [py snd]; rewrite <- ec; field|].
        cbn [px py fst snd]. destruct (Qeq_bool (root _) 0) eqn:er; [discriminate|]. cbn [negb need bind]. intros h. injection h as <-. cbn [py snd]. apply Qeq_bool_neq in er. field. exact er.
    + apply Qle_bool_iff in b1. assert (b2' : ~ (t2y <= t2x)%Q) by (intros hc; apply Qle_bool_iff in hc; congruence). clear e1 e2 e3 e4. clearbody t1x t1y t2x t2y. lra.
    + apply Qle_bool_iff in b2. assert (b1' : ~ (t1x <= t1y)%Q) by (intros hc; apply Qle_bool_iff in hc; congruence). clear e1 e2 e3 e4. clearbody t1x t1y t2x t2y. lra.
    + exists ((y0 - y1) / 2)%Q. split; [intros hz; apply hh; assert (hz2 : (y0 - y1 == 2 * ((y0 - y1) / 2))%Q) by field; rewrite hz in hz2; lra|].
      intros c m. destruct (Qeq_bool 0 c) eqn:ec; [apply Qeq_bool_iff in ec; intros h; injection h as <-; cbn [py snd]; rewrite <- ec; field|].
      cbn [px py fst snd]. destruct (Qeq_bool (root _) 0) eqn:er; [discriminate|]. cbn [negb need bind]. intros h. injection h as <-. cbn [py snd]. apply Qeq_bool_neq in er. field. exact er.
  - rewrite (qlt_true 0 (-1 * (y1 - y0))) by lra.
    set (t1x := ((x1 - (x0 + x1) / 2) / (-1 * (y1 - y0)))%Q). set (t1y := ((y1 - (y0 + y1) / 2) / (x1 - x0))%Q).
    set (t2x := ((x0 - (x0 + x1) / 2) / (-1 * (y1 - y0)))%Q). set (t2y := ((y0 - (y0 + y1) / 2) / (x1 - x0))%Q).
    assert (e1 : (t1x == (x1 - x0) / (2 * (y0 - y1)))%Q) by (unfold t1x; field; lra). assert (e2 : (t1y == - ((y0 - y1) / (2 * (x1 - x0))))%Q) by (unfold t1y; field; lra).
    assert (e3 : (t2x == - ((x1 - x0) / (2 * (y0 - y1))))%Q) by (unfold t2x; field; lra). assert (e4 : (t2y == (y0 - y1) / (2 * (x1 - x0)))%Q) by (unfold t2y; field; lra).
    assert (p1 : (0 < (x1 - x0) / (2 * (y0 - y1)))%Q) by (apply Qlt_shift_div_l; lra). assert (p2 : (0 < (y0 - y1) / (2 * (x1 - x0)))%Q) by (apply Qlt_shift_div_l; lra).
    assert (b1 : Qle_bool t1x t1y = false) by (destruct (Qle_bool t1x t1y) eqn:e; [apply Qle_bool_iff in e; lra|reflexivity]).
    assert (b2 : Qle_bool t2y t2x = false) by (destruct (Qle_bool t2y t2x) eqn:e; [apply Qle_bool_iff in e; lra|reflexivity]).
    rewrite b1, b2. exists ((y0 - y1) / 2)%Q. split; [intros hz; apply hh; assert (hz2 : (y0 - y1 == 2 * ((y0 - y1) / 2))%Q) by field; rewrite hz in hz2; lra|].
    intros c m. destruct (Qeq_bool 0 c) eqn:ec; [apply Qeq_bool_iff in ec; intros h; injection h as <-; cbn [py snd]; rewrite <- ec; field|].
    cbn [px py fst snd]. destruct (Qeq_bool (root _) 0) eqn:er; [discriminate|]. cbn [negb need bind]. intros h. injection h as <-. cbn [py snd]. apply Qeq_bool_neq in er. field. exact er.
Qed.
(** a curve between two points *)
Lemma arc_again root p q c l s p1 s1 :
  (px p < px q)%Q -> ~ (py p == py q)%Q -> ~ (c == 0)%Q -> path_set root [seg_move (px p) (py p); seg_arc (px q) (py q) c] = Some l -> path_set root (segments l) = Some p1 ->
  nth_error (segments l) 1 = Some s -> nth_error (segments p1) 1 = Some s1 ->
  exists m m1, nth_error (points s) 1 = Some m /\ nth_error (points s1) 1 = Some m1 /\ (~ (py m == c)%Q -> ~ (py m1 == py m)%Q).
Proof.
  intros hw hh hc e1 e2 e3 e4. destruct p as [x0 y0], q as [x1 y1]. cbn [px py fst snd] in *. destruct (perpendicular_linear root (x0, y0) (x1, y1) hw hh) as (k & hk & hlin). cbn [px py fst snd] in hlin.
  unfold seg_arc in e1. rewrite (qeqb_false c 0 hc) in e1. unfold path_set in e1.
  rewrite prepare_cons in e1. cbn [seg_move points points_count generate PathModel.prepare aset bind run_prepare aget nth_error Nat.sub] in e1.
  rewrite prepare_cons in e1. cbn [seg_bezier1 points points_count generate PathModel.prepare aset bind] in e1.
  unfold run_prepare in e1. cbn [points points_count generate PathModel.prepare aget nth_error bind aset] in e1. change (py (0%Q, c)) with c in e1.
  destruct (perpendicular_point root (x0, y0) (x1, y1) c) as [m|] eqn:em; [|discriminate]. cbn [bind aset points points_count aget nth_error Nat.sub prepare_segments] in e1. injection e1 as <-. cbn [segments] in *.
  unfold path_set in e2. rewrite prepare_cons in e2. cbn [points points_count generate PathModel.prepare aset bind run_prepare aget nth_error Nat.sub] in e2.
  rewrite prepare_cons in e2. cbn [points points_count generate PathModel.prepare aset bind] in e2.
  unfold run_prepare in e2. cbn [points points_count generate PathModel.prepare aget nth_error bind aset] in e2.
  destruct (perpendicular_point root (x0, y0) (x1, y1) (py m)) as [m1|] eqn:em1; [|discriminate]. cbn [bind aset points points_count aget nth_error Nat.sub prepare_segments] in e2. injection e2 as <-. cbn [segments nth_error] in *.
  injection e3 as <-. injection e4 as <-. exists m, m1. cbn [points nth_error]. split; [reflexivity|]. split; [reflexivity|]. intros hne heq. apply hne.
  pose proof (hlin _ _ em) as h1. pose proof (hlin _ _ em1) as h2. assert (h3 : ((py m - c) * k == 0)%Q) by lra. destruct (Qmult_integral _ _ h3); [lra|contradiction].
Qed.

(** ** paths in paths *)
Lemma nested_size root l sub p : l <> [] -> regular l -> path_set root (map gbuild l ++ [seg_path sub]) = Some p -> Forall (fun g => target g <> None) l ->
  path_end p = Some (last_point zero l).
Proof.
  intros hl hr h hg. unfold path_set in h. destruct (prepare_segments root zero (map gbuild l ++ [seg_path sub])) as [segs|] eqn:e; [|discriminate]. injection h as <-.
  assert (H : forall start segs, prepare_segments root start (map gbuild l ++ [seg_path sub]) = Some segs -> Forall (fun g => target g <> None) l -> regular l -> (px start < size_max)%Q -> segs <> [] /\ last_end start segs = Some (last_point start l)).
  { clear. induction l as [|g l IH]; intros start segs h hg hr hs.
    - cbn in h. injection h as <-. split; [discriminate|]. unfold last_end. cbn [rev app points points_count aget nth_error Nat.sub bind]. rewrite (qeq_size start hs). reflexivity.
    - cbn [map app] in h. destruct segs as [|s segs]; [exfalso; eapply prepare_none; exact h|]. apply prepare_one in h. destruct h as [h0 h]. inversion hg as [|x y hg1 hg2]; subst. cbn [regular] in hr. destruct hr as [hr1 hr2].
      cbn [last_point]. destruct (target g) as [q|]; [|congruence]. destruct h as [h1 h2]. destruct (IH q segs h2 hg2 hr2 hr1) as [i1 i2]. split; [discriminate|]. rewrite (last_end_cons start s segs i1 q). exact i2. }
  destruct (H zero segs e hg hr ltac:(reflexivity)) as [h1 h2]. rewrite (path_end_last (mkpath segs 0 0) zero h1). exact h2.
Qed.
