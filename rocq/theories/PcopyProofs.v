From Coq Require Import QArith.
From Verif Require Import Base PathModel PathSpec PendModel PendSpec PendProofs PcopyModel PcopySpec.
Close Scope Q_scope.

Definition held (m : memory) (h : handle) (o : option path) : Prop :=
  match o with Some p => block m (place h) = Some (plain (segments p)) /\ current h = current_segment_index p /\ previous h = previous_start p | None => block m (place h) = None end.
Record inv (d : nat) (m0 : memory) (l : list segment) (m : memory) (hs : list handle) (paths : list (option path)) : Prop := mkinv {
  i_own : block m d = Some (plain l); i_low : d < next m0; i_next : next m0 <= next m; i_live : live m = live m0;
  i_fresh : forall q, next m <= q -> block m q = None;
  i_others : forall q, q < next m0 -> q <> d -> block m q = block m0 q;
  i_length : length hs = length paths;
  i_held : forall k h o, nth_error hs k = Some h -> nth_error paths k = Some o -> next m0 <= place h < next m /\ held m h o;
  i_apart : forall j k h h', nth_error hs j = Some h -> nth_error hs k = Some h' -> place h = place h' -> j = k;
  i_all : forall q, next m0 <= q -> block m q <> None -> exists k h, nth_error hs k = Some h /\ place h = q }.

Lemma path_set_length root l p : path_set root l = Some p -> length (segments p) = length l.
Proof. unfold path_set. destruct (prepare_segments root zero l) eqn:e; [|discriminate]. cbn. intros [= <-]. exact (prepare_length root l _ _ e). Qed.
Lemma path_get_segments fuel p x y out o ended out' p' : path_get fuel p x y out o = Some (ended, out', p') -> segments p' = segments p.
Proof. unfold path_get. destruct (get_loop _ _ _ _ _ _ _ _ _) as [[[e o1] c]|]; [|discriminate]. cbn. intros [= <- <- <-]. reflexivity. Qed.
Lemma plain_set l i s l' : aset l i s = Some l' -> aset (plain l) i (s, None) = Some (plain l').
Proof.
  revert i l'. induction l as [|x l IH]; intros [|i] l' h; cbn in *; try discriminate; [injection h as <-; reflexivity|].
  destruct (aset l i s) as [t|] eqn:e; [|discriminate]. injection h as <-. unfold plain in *. rewrite (IH i t e). reflexivity.
Qed.

Lemma write_same m d a : block (write m d a) d = a.
Proof. cbn. rewrite Nat.eqb_refl. reflexivity. Qed.
Lemma write_other m d a q : q <> d -> block (write m d a) q = block m q.
Proof. intros h. cbn. apply Nat.eqb_neq in h. rewrite h. reflexivity. Qed.
Lemma set_copy_plain root m d l p : block m d = Some (plain l) -> path_set root l = Some p ->
  exists m', set_copy root true m d = Some (0%Z, m', Some (mkhandle (next m) 0 0)) /\ next m' = S (next m) /\ live m' = live m /\ block m' (next m) = Some (plain (segments p)) /\
    forall q, q <> next m -> block m' q = block m q.
Proof.
  intros h e. unfold set_copy. rewrite h. cbn [bind]. unfold set_at. rewrite write_same. cbn [bind]. rewrite plain_addresses. cbn [forallb need bind]. rewrite plain_fst, e. cbn [bind].
  eexists. split; [reflexivity|]. split; [reflexivity|]. split; [reflexivity|]. split; [rewrite write_same, plain_combine by exact (path_set_length _ _ _ e); reflexivity|].
  intros q hq. rewrite !write_other by exact hq. reflexivity.
Qed.
Lemma path_set_start root l p : path_set root l = Some p -> current_segment_index p = 0 /\ previous_start p = 0%Z.
Proof. unfold path_set. destruct (prepare_segments root zero l); [|discriminate]. cbn. intros [= <-]. split; reflexivity. Qed.

Lemma run_values root fuel uses : forall d m0 l m hs paths r l' paths', inv d m0 l m hs paths -> value_run root fuel l paths uses = Some (r, l', paths') ->
  exists m' hs', run root fuel m d hs uses = Some (r, m', hs') /\ inv d m0 l' m' hs' paths'.
Proof.
  induction uses as [|u uses IH]; intros d m0 l m hs paths r l' paths' I e; cbn [value_run run] in *.
  - injection e as <- <- <-. exists m, hs. split; [reflexivity|exact I].
  - destruct u as [[|]|k x y out|i s|k|k].
    + apply bind_some in e. destruct e as (p & e1 & e2). apply bind_some in e2. destruct e2 as ([[r1 l1] paths1] & e2 & [= <- <- <-]).
      destruct (set_copy_plain root m d l p (i_own _ _ _ _ _ _ I) e1) as (m1 & c1 & c2 & c3 & c4 & c5). rewrite c1. cbn [bind]. destruct (path_set_start _ _ _ e1) as [s1 s2].
      destruct (IH d m0 l m1 (hs ++ [mkhandle (next m) 0 0]) (paths ++ [Some p]) r1 l1 paths1) with (2 := e2) as (m' & hs' & h1 & h2); [|rewrite h1; exists m', hs'; split; [reflexivity|exact h2]].
      pose proof (i_next _ _ _ _ _ _ I). pose proof (i_low _ _ _ _ _ _ I). pose proof (i_length _ _ _ _ _ _ I).
      constructor.
      * rewrite c5 by lia. exact (i_own _ _ _ _ _ _ I).
      * assumption.
      * lia.
      * rewrite c3. exact (i_live _ _ _ _ _ _ I).
      * intros q hq. rewrite c5 by lia. apply (i_fresh _ _ _ _ _ _ I). lia.
      * intros q h3 h4. rewrite c5 by lia. apply (i_others _ _ _ _ _ _ I); assumption.
      * rewrite !app_length. cbn. lia.
      * intros k h o hk ho. destruct (Nat.lt_ge_cases k (length hs)) as [lt|ge].
        -- rewrite nth_error_app1 in hk by lia. rewrite nth_error_app1 in ho by lia. destruct (i_held _ _ _ _ _ _ I k h o hk ho) as [g1 g2]. split; [lia|]. unfold held in *. rewrite !c5 by lia. exact g2.
        -- rewrite nth_error_app2 in hk by lia. rewrite nth_error_app2 in ho by lia. rewrite H1 in hk. destruct (k - length paths) as [|j] eqn:ek; [|destruct j; discriminate]. cbn in hk, ho. injection hk as <-. injection ho as <-. cbn [place]. split; [lia|].
           cbn [held place current previous]. rewrite s1, s2. split; [exact c4|split; reflexivity].
      * assert (L : forall j h, nth_error (hs ++ [mkhandle (next m) 0 0]) j = Some h -> (nth_error hs j = Some h /\ place h < next m) \/ (j = length hs /\ place h = next m)).
        { intros j h hj. destruct (Nat.lt_ge_cases j (length hs)) as [lt|ge].
          - rewrite nth_error_app1 in hj by lia. left. split; [exact hj|]. destruct (nth_error paths j) as [o|] eqn:eo; [|apply nth_error_None in eo; lia]. destruct (i_held _ _ _ _ _ _ I j h o hj eo). lia.
          - rewrite nth_error_app2 in hj by lia. right. destruct (j - length hs) as [|i] eqn:ek; [|destruct i; discriminate]. cbn in hj. injection hj as <-. split; [lia|reflexivity]. }
        intros j k h h' hj hk eq. destruct (L _ _ hj) as [[a1 a2]|[a1 a2]]; destruct (L _ _ hk) as [[b1 b2]|[b1 b2]]; try lia. exact (i_apart _ _ _ _ _ _ I j k h h' a1 b1 eq).
      * intros q h3 h4. destruct (Nat.eq_dec q (next m)) as [->|n].
        -- exists (length hs), (mkhandle (next m) 0 0). rewrite nth_error_app2 by lia. rewrite Nat.sub_diag. split; reflexivity.
        -- rewrite c5 in h4 by exact n. destruct (i_all _ _ _ _ _ _ I q h3 h4) as (k & h & g1 & g2). exists k, h. split; [|exact g2]. rewrite nth_error_app1; [exact g1|]. apply nth_error_Some. congruence.
    + apply bind_some in e. destruct e as ([[r1 l1] paths1] & e2 & [= <- <- <-]). cbn [set_copy bind]. destruct (IH _ _ _ _ _ _ _ _ _ I e2) as (m' & hs' & h1 & h2). rewrite h1. exists m', hs'. split; [reflexivity|exact h2].
    + apply bind_some in e. destruct e as (o & e1 & e2). apply bind_some in e2. destruct e2 as (p & -> & e2). apply bind_some in e2. destruct e2 as ([[ended out1] p1] & e3 & e2). apply bind_some in e2. destruct e2 as ([] & e4 & e2).
      apply bind_some in e2. destruct e2 as (paths1 & e5 & e2). apply bind_some in e2. destruct e2 as ([[r1 l1] paths2] & e6 & [= <- <- <-]).
      unfold aget in *. destruct (nth_error hs k) as [h|] eqn:eh; [|apply nth_error_None in eh; rewrite (i_length _ _ _ _ _ _ I) in eh; apply nth_error_None in eh; congruence]. cbn [bind].
      destruct (i_held _ _ _ _ _ _ I k h _ eh e1) as [g1 (g2 & g3 & g4)]. unfold get_at. rewrite g2. cbn [bind]. rewrite plain_fst, g3, g4. replace (mkpath (segments p) (current_segment_index p) (previous_start p)) with p by (destruct p; reflexivity).
      rewrite e3. cbn [bind]. rewrite e4. cbn [bind]. destruct (aset_some hs k (mkhandle (place h) (current_segment_index p1) (previous_start p1))) as (hs1 & eh1); [apply nth_error_Some; congruence|]. rewrite eh1. cbn [bind].
      destruct (IH d m0 l m hs1 paths1 r1 l1 paths2) with (2 := e6) as (m' & hs' & h1 & h2); [|rewrite h1; exists m', hs'; split; [reflexivity|exact h2]].
      assert (pl : forall j h', nth_error hs1 j = Some h' -> exists h'', nth_error hs j = Some h'' /\ place h'' = place h').
      { intros j h' hj. rewrite (aset_get _ _ _ _ j eh1) in hj. destruct (Nat.eqb_spec j k) as [->|n]; [injection hj as <-; exists h; split; [exact eh|reflexivity]|exists h'; split; [exact hj|reflexivity]]. }
      destruct I. constructor; try assumption.
      * rewrite (aset_length _ _ _ _ eh1), (aset_length _ _ _ _ e5). assumption.
      * intros j h' o hj ho. rewrite (aset_get _ _ _ _ j eh1) in hj. rewrite (aset_get _ _ _ _ j e5) in ho. destruct (Nat.eqb_spec j k) as [->|n]; [|exact (i_held0 j h' o hj ho)].
        injection hj as <-. injection ho as <-. split; [exact g1|]. cbn [held place current previous]. rewrite (path_get_segments _ _ _ _ _ _ _ _ _ e3). split; [exact g2|split; reflexivity].
      * intros i j a b ha hb eq. destruct (pl _ _ ha) as (a' & ha' & ea). destruct (pl _ _ hb) as (b' & hb' & eb). apply (i_apart0 i j a' b' ha' hb'). congruence.
      * intros q h3 h4. destruct (i_all0 q h3 h4) as (j & h' & g5 & g6). destruct (Nat.eq_dec j k) as [->|n].
        -- rewrite eh in g5. injection g5 as <-. eexists k, _. rewrite (aset_get _ _ _ _ k eh1), Nat.eqb_refl. split; [reflexivity|exact g6].
        -- exists j, h'. rewrite (aset_get _ _ _ _ j eh1). apply Nat.eqb_neq in n. rewrite n. split; assumption.
    + apply bind_some in e. destruct e as (l1 & e1 & e2). rewrite (i_own _ _ _ _ _ _ I). cbn [bind]. rewrite (plain_set _ _ _ _ e1). cbn [bind].
      apply (IH d m0 l1 (write m d (Some (plain l1))) hs paths); [|exact e2]. destruct I. constructor; try assumption.
      * apply write_same.
      * intros q hq. cbn [write next] in hq. rewrite write_other by lia. apply i_fresh0. exact hq.
      * intros q h3 h4. rewrite write_other by exact h4. apply i_others0; assumption.
      * intros k h o hk ho. destruct (i_held0 k h o hk ho) as [g1 g2]. split; [exact g1|]. unfold held in *. rewrite !write_other by lia. exact g2.
      * intros q h3 h4. rewrite write_other in h4 by lia. apply i_all0; assumption.
    + apply bind_some in e. destruct e as (o & e1 & e2). apply bind_some in e2. destruct e2 as (p & -> & e2).
      unfold aget in *. destruct (nth_error hs k) as [h|] eqn:eh; [|apply nth_error_None in eh; rewrite (i_length _ _ _ _ _ _ I) in eh; apply nth_error_None in eh; congruence]. cbn [bind].
      destruct (i_held _ _ _ _ _ _ I k h _ eh e1) as [g1 (g2 & g3 & g4)]. unfold free_at. rewrite g2. cbn [bind]. rewrite plain_addresses. cbn [release_all bind].
      replace (mkmem (block m) (next m) (live m)) with m by (destruct m; reflexivity). exact (IH _ _ _ _ _ _ _ _ _ I e2).
    + apply bind_some in e. destruct e as (o & e1 & e2). apply bind_some in e2. destruct e2 as (p & -> & e2). apply bind_some in e2. destruct e2 as (paths1 & e3 & e2).
      unfold aget in *. destruct (nth_error hs k) as [h|] eqn:eh; [|apply nth_error_None in eh; rewrite (i_length _ _ _ _ _ _ I) in eh; apply nth_error_None in eh; congruence]. cbn [bind].
      destruct (i_held _ _ _ _ _ _ I k h _ eh e1) as [g1 (g2 & g3 & g4)]. unfold release_at. rewrite g2. cbn [bind].
      apply (IH d m0 l (write m (place h) None) hs paths1); [|exact e2]. destruct I. constructor; try assumption.
      * rewrite write_other by lia. assumption.
      * intros q hq. cbn [write next] in hq. rewrite write_other by lia. apply i_fresh0. exact hq.
      * intros q h3 h4. rewrite write_other by lia. apply i_others0; assumption.
      * rewrite (aset_length _ _ _ _ e3). assumption.
      * intros j h' o hj ho. rewrite (aset_get _ _ _ _ j e3) in ho. destruct (Nat.eqb_spec j k) as [->|n].
        -- rewrite eh in hj. injection hj as <-. injection ho as <-. split; [exact g1|]. cbn [held]. apply write_same.
        -- destruct (i_held0 j h' o hj ho) as [g5 g6]. split; [exact g5|]. unfold held in *. assert (ne : place h' <> place h) by (intros eq; apply n; exact (i_apart0 j k h' h hj eh eq)). rewrite !write_other by exact ne. exact g6.
      * intros q h3 h4. destruct (Nat.eq_dec q (place h)) as [->|n]; [rewrite write_same in h4; congruence|]. rewrite write_other in h4 by exact n. apply i_all0; assumption.
Qed.
Lemma independent root fuel m d l uses r l' paths : block m d = Some (plain l) -> (forall q, next m <= q -> block m q = None) -> value_run root fuel l [] uses = Some (r, l', paths) ->
  exists m' hs, run root fuel m d [] uses = Some (r, m', hs) /\ block m' d = Some (plain l') /\ live m' = live m /\ (forall q, q < next m -> q <> d -> block m' q = block m q) /\
    length hs = length paths /\ NoDup (map place hs) /\
    (forall q, next m <= q -> block m' q <> None <-> exists k h p, nth_error hs k = Some h /\ place h = q /\ nth_error paths k = Some (Some p)).
Proof.
  intros h1 h2 e. assert (I : inv d m l m [] []).
  { constructor; auto; try (intros [|?] *; discriminate). - destruct (Nat.lt_ge_cases d (next m)) as [h|h]; [exact h|]. rewrite (h2 d h) in h1. discriminate. - intros q hq hb. exfalso. apply hb. apply h2. exact hq. }
  destruct (run_values root fuel uses _ _ _ _ _ _ _ _ _ I e) as (m' & hs & g1 & g2). destruct g2. exists m', hs. split; [exact g1|]. split; [assumption|]. split; [assumption|]. split; [assumption|]. split; [assumption|]. split.
  - apply NoDup_nth_error. intros i j hi eq. rewrite !nth_error_map in eq. rewrite map_length in hi. destruct (nth_error hs i) as [a|] eqn:ea; [|apply nth_error_None in ea; lia]. destruct (nth_error hs j) as [b|] eqn:eb; [|discriminate]. injection eq as eq. exact (i_apart0 i j a b ea eb eq).
  - intros q hq. split.
    + intros hb. destruct (i_all0 q hq hb) as (k & h & g3 & g4). destruct (nth_error paths k) as [o|] eqn:eo; [|apply nth_error_None in eo; assert (k < length hs) by (apply nth_error_Some; congruence); lia].
      destruct (i_held0 k h o g3 eo) as [_ g5]. destruct o as [p|]; [exists k, h, p; auto|]. cbn in g5. congruence.
    + intros (k & h & p & g3 & g4 & g5). destruct (i_held0 k h _ g3 g5) as [_ (g6 & _)]. congruence.
Qed.
Lemma addresses_combine (l : list segment) (a : array) : length l = length a -> addresses (combine l (map snd a)) = addresses a.
Proof. unfold addresses. revert a. induction l as [|s l IH]; intros [|x a] h; cbn in *; try discriminate; [reflexivity|]. injection h as h. rewrite IH by exact h. reflexivity. Qed.
Lemma set_copy_any root m d a p : block m d = Some a -> incl (addresses a) (live m) -> path_set root (map fst a) = Some p ->
  exists m' b, set_copy root true m d = Some (0%Z, m', Some (mkhandle (next m) 0 0)) /\ next m' = S (next m) /\ live m' = live m /\ block m' (next m) = Some b /\ addresses b = addresses a /\
    forall q, q <> next m -> block m' q = block m q.
Proof.
  intros h hi e. unfold set_copy. rewrite h. cbn [bind]. unfold set_at. rewrite write_same. cbn [bind]. assert (hf : forallb (fun q => existsb (Nat.eqb q) (live m)) (addresses a) = true).
  { apply forallb_forall. intros q hq. apply existsb_exists. exists q. split; [apply hi; exact hq|apply Nat.eqb_refl]. }
  cbn [write live]. rewrite hf. cbn [need bind]. rewrite e. cbn [bind]. eexists _, _. split; [reflexivity|]. split; [reflexivity|]. split; [reflexivity|]. split; [apply write_same|]. split.
  - apply addresses_combine. rewrite (path_set_length _ _ _ e). apply map_length.
  - intros q hq. rewrite !write_other by exact hq. reflexivity.
Qed.
Lemma free_both root fuel m d a p : block m d = Some a -> d < next m -> NoDup (addresses a) -> incl (addresses a) (live m) -> addresses a <> [] -> path_set root (map fst a) = Some p ->
  (exists m' hs, run root fuel m d [] [Copy true; Copy true; Free 0] = Some ([Status 0; Status 0], m', hs)) /\ run root fuel m d [] [Copy true; Copy true; Free 0; Free 1] = None.
Proof.
  intros h1 h2 h3 h4 h5 e. destruct (set_copy_any root m d a p h1 h4 e) as (m1 & b1 & c1 & c2 & c3 & c4 & c5 & c6).
  destruct (set_copy_any root m1 d a p) as (m2 & b2 & g1 & g2 & g3 & g4 & g5 & g6); [rewrite c6 by lia; exact h1|rewrite c3; exact h4|exact e|].
  destruct (release_all_some (addresses a) (live m) h3 h4) as (l & el).
  cbn [run]. rewrite c1. cbn [bind app]. rewrite g1. cbn [bind app aget nth_error]. unfold free_at at 1 2. cbn [place]. rewrite !g6, !c4 by lia. cbn [bind]. rewrite c5, g3, c3, el. cbn [bind]. split; [eexists _, _; reflexivity|].
  unfold free_at. cbn [block place]. rewrite g4. cbn [bind live]. rewrite g5. destruct (addresses a) as [|x rest] eqn:ea; [congruence|]. cbn [release_all].
  assert (n : existsb (Nat.eqb x) l = false). { destruct (existsb (Nat.eqb x) l) eqn:ex; [|reflexivity]. apply existsb_exists in ex. destruct ex as (y & hy & ey). apply Nat.eqb_eq in ey. subst y. destruct (release_all_in _ _ _ _ el hy) as [_ no]. exfalso. apply no. left. reflexivity. }
  unfold release. rewrite n. reflexivity.
Qed.
