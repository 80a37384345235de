(** Proofs about sampling paths. *)
From Coq Require Import QArith Qround.
From Verif Require Import Base PathModel PathSpec.
Close Scope Q_scope.

Definition oeq (a b : option Q) : Prop := match a, b with Some a, Some b => (a == b)%Q | None, None => True | _, _ => False end.
Lemma oeq_refl a : oeq a a. Proof. destruct a; cbn; auto. reflexivity. Qed.
Lemma oeq_trans a b c : oeq a b -> oeq b c -> oeq a c.
Proof. destruct a, b, c; cbn; try tauto. apply Qeq_trans. Qed.
#[local] Hint Resolve oeq_refl : core.

Lemma to_size_int z : (0 <= z < two64)%Z -> to_size (inject_Z z) = Some z.
Proof.
  intros h. unfold to_size. destruct (Qle_bool (inject_Z z) (-1)) eqn:e1. { apply Qle_bool_iff in e1. change (-1)%Q with (inject_Z (-1)) in e1. rewrite <- Zle_Qle in e1. lia. }
  destruct (Qle_bool (inject_Z two64) (inject_Z z)) eqn:e2. { apply Qle_bool_iff in e2. rewrite <- Zle_Qle in e2. lia. }
  cbn [orb]. rewrite Qfloor_Z. f_equal. lia.
Qed.
Lemma to_size_floor a : (0 <= a)%Q -> (a < inject_Z two64)%Q -> to_size a = Some (Qfloor a).
Proof.
  intros h1 h2. unfold to_size. destruct (Qle_bool a (-1)) eqn:e1. { apply Qle_bool_iff in e1. exfalso. apply (Qlt_irrefl 0). apply Qle_lt_trans with a; [exact h1|]. apply Qle_lt_trans with (-1)%Q; [exact e1|reflexivity]. }
  destruct (Qle_bool (inject_Z two64) a) eqn:e2. { apply Qle_bool_iff in e2. exfalso. apply (Qlt_irrefl a). apply Qlt_le_trans with (inject_Z two64); assumption. }
  cbn [orb]. f_equal. apply Z.max_r. change 0%Z with (Qfloor (inject_Z 0)). apply Qfloor_resp_le. exact h1.
Qed.
Lemma to_size_frac a : (-1 < a)%Q -> (a <= 0)%Q -> to_size a = Some 0%Z.
Proof.
  intros h1 h2. unfold to_size. destruct (Qle_bool a (-1)) eqn:e1. { apply Qle_bool_iff in e1. exfalso. apply (Qlt_irrefl a). apply Qle_lt_trans with (-1)%Q; assumption. }
  destruct (Qle_bool (inject_Z two64) a) eqn:e2. { apply Qle_bool_iff in e2. exfalso. apply (Qle_not_lt _ _ e2). apply Qle_lt_trans with 0%Q; [exact h2|reflexivity]. }
  cbn [orb]. f_equal. apply Z.max_l. change 0%Z with (Qfloor (inject_Z 0)). apply Qfloor_resp_le. exact h2.
Qed.

Section Path.
Variable root : Q -> Q.
Notation run_generate := (run_generate).

(** [any]: for any window, otherwise only for those that start with the segment and are not empty. [m]: sufficient fuel *)
Definition draws (any : bool) (m : nat) (s : segment) (p : piece) : Prop :=
  forall fuel start fin out o, m <= fuel -> (from p <= start <= fin)%Z -> (fin <= upto p)%Z -> any = true \/ start = from p /\ (start < fin \/ from p = upto p)%Z -> o + Z.to_nat (fin - start) <= length out ->
  exists out', PathModel.run_generate fuel start fin s out o = Some (true, out') /\ length out' = length out /\
    forall j, oeq (nth_error out' j) (if (o <=? j) && (j <? o + Z.to_nat (fin - start)) then Some (value p (start + Z.of_nat (j - o))) else nth_error out j).
Definition bounds (s : segment) (a b : Z) : Prop :=
  exists p0 p1, aget (points s) 0 = Some p0 /\ to_size (px p0) = Some a /\ aget (points s) (points_count s - 1) = Some p1 /\ to_size (px p1) = Some b.
Inductive pieces (any : bool) (m : nat) : Z -> list segment -> list piece -> Prop :=
  | pieces_nil a : pieces any m a [] []
  | pieces_cons s l p ps : (0 <= from p <= upto p)%Z -> bounds s (from p) (upto p) -> draws any m s p -> pieces any m (upto p) l ps -> pieces any m (from p) (s :: l) (p :: ps).

Lemma pieces_from any m a l ps : pieces any m a l ps -> forall p k, In p ps -> (k < a)%Z -> (from p <=? k)%Z && (k <? upto p)%Z = false.
Proof. induction 1 as [|s l p ps h1 h2 h3 h4 IH]; intros p' k hi hk; [destruct hi|]. destruct hi as [<-|hi]; [lia|apply IH; [exact hi|lia]]. Qed.
Lemma pieces_none any m a l ps k : pieces any m a l ps -> (k < a)%Z -> piece_at ps k = None.
Proof.
  intros h hk. unfold piece_at. destruct (find _ ps) as [p|] eqn:e; [|reflexivity]. apply find_some in e as [e1 e2]. rewrite (pieces_from any m a l ps h p k e1 hk) in e2. discriminate.
Qed.
Lemma pieces_upto any m a l ps : pieces any m a l ps -> forall pre p post, ps = pre ++ p :: post -> (Forall (fun r => upto r <= from p) pre)%Z.
Proof.
  induction 1 as [|s l p0 ps h1 h2 h3 h4 IH]; intros pre p post e; [destruct pre; discriminate|]. destruct pre as [|r pre]; [constructor|]. injection e as <- e. constructor; [|apply (IH pre p post e)].
  clear -h4 e. assert (hi : In p ps) by (rewrite e, in_app_iff; cbn; auto). clear e. induction h4 as [|s l p1 ps h1 h2 h3 h4 IH]; [destruct hi|]. destruct hi as [<-|hi]; [lia|]. specialize (IH hi). lia.
Qed.

Lemma pieces_tail any m pre : forall a ppre s post p ppost, pieces any m a (pre ++ s :: post) (ppre ++ p :: ppost) -> length pre = length ppre -> pieces any m (from p) (s :: post) (p :: ppost).
Proof.
  induction pre as [|s0 pre IH]; intros a ppre s post p ppost h hl; destruct ppre as [|p0 ppre]; try discriminate; cbn [app] in h.
  - inversion h; subst. exact h.
  - inversion h as [|? ? ? ? h1 h2 h3 h4]; subst. apply (IH _ ppre s post p ppost h4). cbn in hl. lia.
Qed.
Lemma pieces_length any m a l ps : pieces any m a l ps -> length l = length ps.
Proof. induction 1; cbn; auto. Qed.

(** one window *)
Lemma get_loop_spec any m l ps : pieces any m 0 l ps -> forall start fin o, (0 <= start <= fin)%Z -> any = true \/ start = 0%Z /\ (forall p, In p ps -> from p < upto p -> from p < fin)%Z -> forall fuel post ppost pre ppre current out, m <= fuel ->
  l = pre ++ post -> ps = ppre ++ ppost -> length pre = length ppre -> o + Z.to_nat (fin - start) <= length out ->
  ((exists p t, ppost = p :: t /\ from p <= fin) \/ Forall (fun p => upto p <= fin) (firstn current ps))%Z -> current < length l ->
  exists out' current', get_loop fuel (length post) l (length pre) current start fin out o = Some (true, out', current') /\ length out' = length out /\ current' < length l /\
    (Forall (fun p => upto p <= fin) (firstn current' ps))%Z /\
    forall j, oeq (nth_error out' j) (if (o <=? j) && (j <? o + Z.to_nat (fin - start)) then match piece_at ppost (start + Z.of_nat (j - o)) with Some p => Some (value p (start + Z.of_nat (j - o))) | None => nth_error out j end else nth_error out j).
Proof.
  intros hall start fin o hse hany fuel post. induction post as [|s post IH]; intros ppost pre ppre current out hm el ep hl1 ho hc hcl.
  - assert (ppost = []) as ->. { pose proof (pieces_length _ _ _ _ _ hall) as hl. rewrite el, ep, !app_length in hl. cbn in hl. apply length_zero_iff_nil. lia. }
    destruct hc as [(p & t & hp & _)|hc]; [discriminate|]. exists out, current. cbn [length get_loop]. splits; auto. intros j. unfold piece_at. cbn. destruct (_ && _); auto.
  - destruct ppost as [|p ppost]. { pose proof (pieces_length _ _ _ _ _ hall) as hl. rewrite el, ep, !app_length in hl. cbn in hl. lia. }
    assert (htail : pieces any m (from p) (s :: post) (p :: ppost)) by (apply (pieces_tail any m pre 0 ppre); [rewrite <- el, <- ep; exact hall|exact hl1]).
    inversion htail as [|? ? ? ? h1 h2 h3 h4]; subst s0 l0 p0 ps0. destruct h2 as (p0 & p1 & b1 & b2 & b3 & b4). cbn [length get_loop].
    assert (es : aget l (length pre) = Some s) by (rewrite el; unfold aget; rewrite nth_error_app2, Nat.sub_diag by lia; reflexivity). rewrite es. cbn [bind]. rewrite b1. cbn [bind]. rewrite b2. cbn [bind]. rewrite b3. cbn [bind]. rewrite b4. cbn [bind].
    destruct (Z.ltb_spec fin (from p)) as [c1|c1].
    + (* behind the window *) destruct hc as [(p' & t & [= <- <-] & hp)|hc]; [lia|]. exists out, current. splits; auto. intros j. destruct (_ && _) eqn:ej; [|auto]. rewrite (pieces_none any m (from p) (s :: post) (p :: ppost)); [auto|exact htail|lia].
    + assert (hpre : (Forall (fun r => upto r <= fin) ppre)%Z) by (refine (Forall_impl _ _ (pieces_upto any m 0 l ps hall ppre p ppost ep)); cbn; intros; lia).
      assert (hcur : (Forall (fun r => upto r <= fin) (firstn (length pre) ps))%Z) by (rewrite ep, hl1, firstn_app, firstn_all, Nat.sub_diag; cbn [firstn]; rewrite app_nil_r; exact hpre).
      assert (hlt : length pre < length l) by (rewrite el, app_length; cbn [length]; lia).
      assert (el' : l = (pre ++ [s]) ++ post) by (rewrite <- app_assoc; exact el). assert (ep' : ps = (ppre ++ [p]) ++ ppost) by (rewrite <- app_assoc; exact ep). assert (hl' : length (pre ++ [s]) = length (ppre ++ [p])) by (rewrite !app_length; cbn; lia).
      assert (hS : S (length pre) = length (pre ++ [s])) by (rewrite app_length; cbn; lia).
      destruct (Z.ltb_spec (upto p) start) as [c2|c2].
      * (* before the window *) destruct (IH ppost (pre ++ [s]) (ppre ++ [p]) (length pre) out hm el' ep' hl' ho (or_intror hcur) hlt) as (out' & current' & e & q1 & q2 & q3 & q4). rewrite hS, e. exists out', current'. splits; auto.
        intros j. specialize (q4 j). destruct (_ && _) eqn:ej; [|exact q4]. unfold piece_at in *. cbn [find]. replace ((from p <=? start + Z.of_nat (j - o))%Z && (start + Z.of_nat (j - o) <? upto p)%Z) with false by lia. exact q4.
      * set (off := if (start <? from p)%Z then Z.to_nat (from p - start) else 0). set (a := if (from p <? start)%Z then start else from p). set (b := if (fin <? upto p)%Z then fin else upto p).
        assert (hoff : off = Z.to_nat (a - start)) by (unfold off, a; destruct (Z.ltb_spec start (from p)), (Z.ltb_spec (from p) start); lia).
        assert (ha : (Z.max start (from p) = a)%Z) by (unfold a; destruct (Z.ltb_spec (from p) start); lia). assert (hb : (Z.min fin (upto p) = b)%Z) by (unfold b; destruct (Z.ltb_spec fin (upto p)); lia).
        destruct (h3 fuel a b out (o + off)) as (out1 & e1 & r1 & r2); [exact hm|lia|lia| |lia|]. { destruct hany as [hany|[hs0 hany]]; [auto|right]. assert (hin : In p ps) by (rewrite ep, in_app_iff; cbn; auto). specialize (hany p hin). lia. } rewrite e1. cbn [bind].
        destruct (IH ppost (pre ++ [s]) (ppre ++ [p]) (length pre) out1 hm el' ep' hl' ltac:(rewrite r1; exact ho) (or_intror hcur) hlt) as (out' & current' & e & q1 & q2 & q3 & q4). rewrite hS, e. exists out', current'. splits; auto; [congruence|].
        intros j. specialize (q4 j). specialize (r2 j). set (k := (start + Z.of_nat (j - o))%Z) in *. destruct ((o <=? j) && (j <? o + Z.to_nat (fin - start))) eqn:ej.
        -- unfold piece_at in *. cbn [find]. destruct ((from p <=? k)%Z && (k <? upto p)%Z) eqn:ek.
           ++ assert (hn : find (fun p0 => (from p0 <=? k)%Z && (k <? upto p0)%Z) ppost = None) by (apply (pieces_none any m (upto p) post ppost k h4); lia). rewrite hn in q4. eapply oeq_trans; [exact q4|]. replace ((o + off <=? j) && (j <? o + off + Z.to_nat (b - a))) with true in r2 by (unfold k in *; lia).
              replace k with (a + Z.of_nat (j - (o + off)))%Z by (unfold k in *; lia). exact r2.
           ++ replace ((o + off <=? j) && (j <? o + off + Z.to_nat (b - a))) with false in r2 by (unfold k in *; lia). destruct (find _ ppost); [exact q4|]. eapply oeq_trans; [exact q4|exact r2].
        -- replace ((o + off <=? j) && (j <? o + off + Z.to_nat (b - a))) with false in r2 by lia. eapply oeq_trans; [exact q4|exact r2].
Qed.
Lemma path_get_spec any m l ps : pieces any m 0 l ps -> forall fuel start fin o current previous pfin out, m <= fuel -> (0 <= start <= fin)%Z -> any = true \/ start = 0%Z /\ (forall p, In p ps -> from p < upto p -> from p < fin)%Z -> current < length l ->
  (Forall (fun p => upto p <= pfin) (firstn current ps))%Z -> (pfin <= start \/ start < previous)%Z -> o + Z.to_nat (fin - start) <= length out ->
  exists out' current', path_get fuel (mkpath l current previous) start fin out o = Some (true, out', mkpath l current' start) /\ length out' = length out /\ current' < length l /\
    (Forall (fun p => upto p <= fin) (firstn current' ps))%Z /\
    forall j, oeq (nth_error out' j) (if (o <=? j) && (j <? o + Z.to_nat (fin - start)) then match piece_at ps (start + Z.of_nat (j - o)) with Some p => Some (value p (start + Z.of_nat (j - o))) | None => nth_error out j end else nth_error out j).
Proof.
  intros hall fuel start fin o current previous pfin out hm hse hany hcl hf hw ho. unfold path_get. cbn [segments current_segment_index previous_start]. pose proof (pieces_length _ _ _ _ _ hall) as hlen.
  destruct (Z.ltb_spec start previous) as [c|c].
  - (* from the beginning *)
    destruct l as [|s l]; [cbn in hcl; lia|]. destruct ps as [|p ps]; [discriminate|].
    assert (hp0 : (from p <= fin)%Z) by (inversion hall; subst; lia).
    destruct (get_loop_spec any m (s :: l) (p :: ps) hall start fin o hse hany fuel (s :: l) (p :: ps) [] [] current out hm eq_refl eq_refl eq_refl ho (or_introl (ex_intro _ p (ex_intro _ ps (conj eq_refl hp0)))) hcl) as (out' & current' & e & q1 & q2 & q3 & q4).
    change (length (@nil segment)) with 0 in e. rewrite Nat.sub_0_r, e. cbn [bind]. exists out', current'. splits; auto.
  - destruct hw as [hw|hw]; [|lia].
    assert (hpre : length (firstn current l) = length (firstn current ps)) by (rewrite !firstn_length; lia). assert (hc : length (firstn current l) = current) by (rewrite firstn_length; lia).
    destruct (get_loop_spec any m l ps hall start fin o hse hany fuel (skipn current l) (skipn current ps) (firstn current l) (firstn current ps) current out) as (out' & current' & e & q1 & q2 & q3 & q4); auto.
    { symmetry. apply firstn_skipn. } { symmetry. apply firstn_skipn. } { right. refine (Forall_impl _ _ hf). cbn. intros. lia. }
    rewrite hc, skipn_length in e. rewrite e. cbn [bind]. rewrite (proj2 (Nat.ltb_lt _ _) hcl). exists out', current'. splits; auto. intros j. specialize (q4 j). destruct (_ && _) eqn:ej; [|exact q4].
    set (k := (start + Z.of_nat (j - o))%Z) in *. replace (piece_at ps k) with (piece_at (skipn current ps) k); [exact q4|]. rewrite <- (firstn_skipn current ps) at 2. unfold piece_at.
    assert (hk : (start <= k)%Z) by lia. revert hf hk. generalize (firstn current ps) as l1. clear -hw. intros l1. induction l1 as [|r l1 IH]; intros hf hk; [reflexivity|]. inversion hf; subst. cbn [app find].
    replace ((from r <=? k)%Z && (k <? upto r)%Z) with false by lia. apply IH; assumption.
Qed.
End Path.
