From Verif Require Import Base ConvolveModel ConvolveSpec.

Section Proofs.
Variable V : Type.
Variables (zero : V) (add mul : V -> V -> V).
Notation accumulate := (accumulate V add mul).
Notation sp_convolve_one := (sp_convolve_one V add mul).
Notation convolve_tail := (convolve_tail V add mul).
Notation sp_convolve := (sp_convolve V zero add mul).
Notation convolve_prepare := (convolve_prepare V zero).
Notation conv_sample := (conv_sample V add mul).
Notation conv_term := (conv_term V mul).

Definition cstep (a b : list V) (k : nat) (acc : V) (i : nat) : V :=
  if i <=? k then
    match nth_error a i, nth_error b (k - i) with Some x, Some y => add acc (mul x y) | _, _ => acc end
  else acc.

Lemma conv_sample_fold acc a b k : conv_sample acc a b k = fold_left (cstep a b k) (seq 0 (S k)) acc.
Proof.
  unfold ConvolveSpec.conv_sample.
  assert (G : forall l acc, (forall i, In i l -> i <= k) ->
    fold_left add (flat_map (conv_term a b k) l) acc = fold_left (cstep a b k) l acc).
  { induction l as [|i l IH]; intros ac Hl; simpl; auto.
    rewrite fold_left_app, IH by (intros; apply Hl; right; auto).
    f_equal; unfold cstep, ConvolveSpec.conv_term.
    rewrite (proj2 (Nat.leb_le i k)) by (apply Hl; left; auto).
    destruct (nth_error a i); simpl; auto; destruct (nth_error b (k - i)); reflexivity. }
  apply G; intros i Hi; apply in_seq in Hi; lia.
Qed.

Lemma cstep_fold_len acc a b k n m :
  (forall i, n <= i -> n <= i < m -> k < i \/ length a <= i) -> n <= m ->
  fold_left (cstep a b k) (seq 0 n) acc = fold_left (cstep a b k) (seq 0 m) acc.
Proof.
  intros H Hnm; replace m with (n + (m - n)) by lia.
  rewrite seq_app, fold_left_app; symmetry; apply fold_left_id_in.
  intros ac i Hi; apply in_seq in Hi; unfold cstep.
  destruct (Nat.leb_spec i k); auto.
  destruct (H i) as [Hk|Hk]; try lia.
  rewrite (proj2 (nth_error_None a i)) by lia; reflexivity.
Qed.

Lemma conv_sample_fold_len acc a b k n : length a <= n -> conv_sample acc a b k = fold_left (cstep a b k) (seq 0 n) acc.
Proof.
  intros Hn; rewrite conv_sample_fold.
  destruct (Nat.le_ge_cases (S k) n).
  - apply cstep_fold_len; auto; intros; lia.
  - symmetry; apply cstep_fold_len; auto; intros; lia.
Qed.

(** splitting the input *)
Lemma conv_sample_app acc a1 a2 b k :
  conv_sample acc (a1 ++ a2) b k =
  if k <? length a1 then conv_sample acc a1 b k
  else conv_sample (conv_sample acc a1 b k) a2 b (k - length a1).
Proof.
  rewrite !conv_sample_fold.
  destruct (Nat.ltb_spec k (length a1)) as [Hk|Hk].
  - apply fold_left_ext_in; intros ac i Hi; apply in_seq in Hi; unfold cstep.
    rewrite nth_error_app1 by lia; reflexivity.
  - replace (S k) with (length a1 + S (k - length a1)) at 1 by lia.
    rewrite seq_app, fold_left_app; simpl Nat.add.
    rewrite <- (cstep_fold_len acc a1 b k (length a1) (S k)) by (intros; lia).
    rewrite (fold_left_ext_in (cstep (a1 ++ a2) b k) (cstep a1 b k) (seq 0 (length a1))).
    2:{ intros ac i Hi; apply in_seq in Hi; unfold cstep; rewrite nth_error_app1 by lia; reflexivity. }
    generalize (fold_left (cstep a1 b k) (seq 0 (length a1)) acc); intros ac0.
    assert (G : forall n s ac, fold_left (cstep (a1 ++ a2) b k) (seq (length a1 + s) n) ac
      = fold_left (cstep a2 b (k - length a1)) (seq s n) ac).
    { induction n as [|n IH]; intros s ac; simpl; auto.
      replace (S (length a1 + s)) with (length a1 + S s) by lia; rewrite IH; f_equal.
      unfold cstep; rewrite nth_error_app2 by lia.
      replace (length a1 + s - length a1) with s by lia.
      replace (k - (length a1 + s)) with (k - length a1 - s) by lia.
      destruct (Nat.leb_spec (length a1 + s) k), (Nat.leb_spec s (k - length a1)); auto; lia. }
    replace (length a1) with (length a1 + 0) at 1 by lia; apply G.
Qed.

(** one row of products added to a buffer *)
Definition rowed (a b : list V) (ai n : nat) (c c' : list V) : Prop :=
  length c' = length c /\
  forall k, nth_error c' k =
    match nth_error c k with
    | None => None
    | Some o => Some (if (ai <=? k) && (k <? ai + n) then cstep a b k o ai else o)
    end.

Lemma accumulate_spec a b ai bi c out :
  ai < length a -> bi < length b -> c < length out ->
  exists x y o out', nth_error a ai = Some x /\ nth_error b bi = Some y /\ nth_error out c = Some o /\
    accumulate a b ai bi c out = Some out' /\ length out' = length out /\
    forall k, nth_error out' k = if k =? c then Some (add o (mul x y)) else nth_error out k.
Proof.
  intros Ha Hb Hc.
  destruct (nth_error_some a ai Ha) as [x Ex], (nth_error_some b bi Hb) as [y Ey], (nth_error_some out c Hc) as [o Eo].
  destruct (aset_some out c (add o (mul x y)) Hc) as [out' E].
  exists x, y, o, out'; repeat split; auto.
  - unfold ConvolveModel.accumulate, aget; rewrite Ex, Ey, Eo; simpl; exact E.
  - eapply aset_length; eauto.
  - intros k; eapply aset_get; eauto.
Qed.

Lemma rowed_0 a b ai c : rowed a b ai 0 c c.
Proof.
  split; auto; intros k; destruct (nth_error c k); auto.
  replace (ai + 0) with ai by lia.
  destruct (Nat.leb_spec ai k), (Nat.ltb_spec k ai); simpl; auto; lia.
Qed.

Lemma rowed_step a b ai n c c1 c2 x y o :
  rowed a b ai n c c1 ->
  nth_error a ai = Some x -> nth_error b n = Some y -> nth_error c1 (ai + n) = Some o ->
  length c2 = length c1 ->
  (forall k, nth_error c2 k = if k =? ai + n then Some (add o (mul x y)) else nth_error c1 k) ->
  rowed a b ai (S n) c c2.
Proof.
  intros [HL HG] Hx Hy Ho HL2 HG2; split; [lia|]; intros k.
  rewrite HG2; destruct (Nat.eqb_spec k (ai + n)) as [->|Hk].
  - rewrite HG in Ho; destruct (nth_error c (ai + n)) as [o'|]; [|discriminate].
    destruct (Nat.leb_spec ai (ai + n)); [|lia].
    destruct (Nat.ltb_spec (ai + n) (ai + n)); [lia|]; simpl in Ho; injection Ho as ->.
    destruct (Nat.ltb_spec (ai + n) (ai + S n)); [|lia]; simpl.
    unfold cstep; replace (ai + n - ai) with n by lia.
    destruct (Nat.leb_spec ai (ai + n)); [|lia].
    rewrite Hx, Hy; reflexivity.
  - rewrite HG; destruct (nth_error c k); auto.
    destruct (Nat.leb_spec ai k), (Nat.ltb_spec k (ai + n)), (Nat.ltb_spec k (ai + S n)); simpl; auto; lia.
Qed.

(** the accumulation of the first [n] rows *)
Definition rows (a b : list V) (b_len lo n : nat) (c c' : list V) : Prop :=
  length c' = length c /\
  forall k, nth_error c' k =
    match nth_error c k with
    | None => None
    | Some o => Some (fold_left (cstep a (firstn b_len b) k) (seq lo n) o)
    end.

Lemma rows_snoc a b b_len lo n c c1 c2 :
  b_len <= length b ->
  rows a b b_len lo n c c1 -> rowed a b (lo + n) b_len c1 c2 -> rows a b b_len lo (S n) c c2.
Proof.
  intros Hb [HL1 H1] [HL2 H2]; split; [lia|]; intros k.
  rewrite H2, H1; destruct (nth_error c k) as [o|]; auto; f_equal.
  rewrite seq_S, fold_left_app; simpl.
  set (ac := fold_left _ _ o); unfold cstep.
  destruct (Nat.leb_spec (lo + n) k); simpl; auto.
  destruct (Nat.ltb_spec k (lo + n + b_len)).
  - rewrite nth_error_firstn by lia; reflexivity.
  - rewrite nth_error_firstn_ge by lia; destruct (nth_error a (lo + n)); reflexivity.
Qed.

Lemma convolve_one_spec a a_len b b_len out :
  a_len <= length a -> b_len <= length b -> a_len + b_len - 1 <= length out ->
  exists out', sp_convolve_one a a_len b b_len out = Some out' /\ rows a b b_len 0 a_len out out'.
Proof.
  intros Ha Hb Ho; unfold ConvolveModel.sp_convolve_one.
  apply (for_inv (fun n o => rows a b b_len 0 n out o)); [lia| |].
  - split; auto; intros k; destruct (nth_error out k); auto.
  - intros ai c [_ Hai] Hc.
    assert (Hlc : length c = length out) by (destruct Hc; lia).
    destruct (for_inv (fun n o => rowed a b ai n c o)
      (fun b_index out => accumulate a b ai b_index (ai + b_index) out) 0 b_len c) as [c' [E Hr]].
    + lia.
    + apply rowed_0.
    + intros bi c1 Hbi Hr1.
      assert (length c1 = length c) by (destruct Hr1; lia).
      destruct (accumulate_spec a b ai bi (ai + bi) c1) as (x & y & o & c2 & Ex & Ey & Eo & E & EL & EG); try lia.
      exists c2; split; auto; eapply rowed_step; eauto.
    + exists c'; split; auto.
      apply (rows_snoc a b b_len 0 ai out c c'); auto.
Qed.

(** the tail loop works on the concatenation of out and carryover *)
Lemma convolve_tail_spec a a_len b b_len size out carry :
  a_len <= length a -> b_len <= length b -> a_len = length out -> size <= a_len ->
  (size < a_len -> b_len - 1 <= length carry) ->
  exists out' carry', convolve_tail a a_len b b_len size (out, carry) = Some (out', carry') /\
    length out' = length out /\
    rows a b b_len size (a_len - size) (out ++ carry) (out' ++ carry').
Proof.
  intros Ha Hb Ho Hs Hc; unfold ConvolveModel.convolve_tail.
  pose (P := fun n (s : list V * list V) => length (fst s) = length out /\
     rows a b b_len size (n - size) (out ++ carry) (fst s ++ snd s)).
  edestruct (for_inv P) as [[out' carry'] [E [HL HR]]].
  4:{ exists out', carry'; split; [exact E|]; split; auto. }
  - lia.
  - split; auto; simpl; replace (size - size) with 0 by lia; split; auto.
    intros k; simpl; destruct (nth_error (out ++ carry) k); auto.
  - intros ai [o1 c1] Hai [HL HR]; simpl in HL, HR.
    pose (Q := fun n (s : list V * list V) => length (fst s) = length out /\ length (snd s) = length c1 /\
       rowed a b ai n (o1 ++ c1) (fst s ++ snd s)).
    assert (HLc1 : length c1 = length carry).
    { destruct HR as [HR _]; rewrite !app_length in HR; lia. }
    edestruct (for_inv Q) as [[o2 c2] [E [HL2 [HLc HR2]]]].
    4:{ exists (o2, c2); split; [exact E|]; split; [exact HL2|]; cbn [fst snd].
        replace (S ai - size) with (S (ai - size)) by lia.
        eapply rows_snoc; eauto; replace (size + (ai - size)) with ai by lia; exact HR2. }
    + lia.
    + split; auto; split; auto; apply rowed_0.
    + intros bi [o2 c2] Hbi [HL2 [HLc2 HR2]]; simpl in HL2, HLc2, HR2.
      destruct (Nat.ltb_spec (ai + bi) a_len) as [Hlt|Hge].
      * destruct (accumulate_spec a b ai bi (ai + bi) o2) as (x & y & o & o3 & Ex & Ey & Eo & E & EL & EG); try lia.
        rewrite E; simpl; eexists; split; [reflexivity|]; split; [simpl; lia|]; split; [auto|]; simpl.
        eapply rowed_step; eauto.
        -- rewrite nth_error_app1 by lia; eauto.
        -- rewrite !app_length; lia.
        -- intros k; destruct (Nat.lt_ge_cases k (length o2)) as [Hk|Hk].
           ++ rewrite !nth_error_app1 by lia; auto.
           ++ rewrite !nth_error_app2 by lia; rewrite EL.
              destruct (Nat.eqb_spec k (ai + bi)); [lia|auto].
      * destruct (accumulate_spec a b ai bi (ai + bi - a_len) c2) as (x & y & o & c3 & Ex & Ey & Eo & E & EL & EG); try lia.
        rewrite E; simpl; eexists; split; [reflexivity|]; split; [simpl; lia|]; split; [simpl; lia|]; simpl.
        eapply rowed_step; eauto.
        -- rewrite nth_error_app2 by lia; replace (ai + bi - length o2) with (ai + bi - a_len) by lia; eauto.
        -- rewrite !app_length; lia.
        -- intros k; destruct (Nat.lt_ge_cases k (length o2)) as [Hk|Hk].
           ++ rewrite !nth_error_app1 by lia; destruct (Nat.eqb_spec k (ai + bi)); [lia|auto].
           ++ rewrite !nth_error_app2 by lia; rewrite EG.
              destruct (Nat.eqb_spec k (ai + bi)), (Nat.eqb_spec (k - length o2) (ai + bi - a_len)); auto; lia.
Qed.

(** contents after the preparation step *)
Definition prepared (a_len carryover_len : nat) (carry : list V) (k : nat) : option V :=
  if k <? a_len then if k <? carryover_len then nth_error carry k else Some zero
  else let j := k - a_len in
       if k <? carryover_len then nth_error carry k else if j <? carryover_len then Some zero else nth_error carry j.

Lemma prepare_spec a_len clen carry out :
  length out = a_len -> clen <= length carry ->
  exists out' carry', convolve_prepare a_len clen carry out = Some (out', carry') /\
    length out' = length out /\ length carry' = length carry /\
    forall k, nth_error (out' ++ carry') k = if k <? a_len + length carry then prepared a_len clen carry k else None.
Proof.
  intros Ho Hc; unfold ConvolveModel.convolve_prepare.
  destruct (Nat.ltb_spec 0 clen) as [H0|H0].
  - destruct (Nat.leb_spec clen a_len) as [H1|H1].
    + destruct (blit_some carry 0 out 0 clen) as [o1 E1]; try lia; rewrite E1; simpl.
      destruct (fill_some carry 0 clen zero) as [c1 E2]; try lia; rewrite E2; simpl.
      pose proof (blit_length _ _ _ _ _ _ E1) as L1; pose proof (fill_length _ _ _ _ _ E2) as L2.
      destruct (fill_some o1 clen (a_len - clen) zero) as [o2 E3]; try lia; rewrite E3; simpl.
      pose proof (fill_length _ _ _ _ _ E3) as L3.
      exists o2, c1; repeat split; try lia.
      intros k; unfold prepared.
      destruct (Nat.ltb_spec k a_len) as [Hk|Hk].
      * rewrite nth_error_app1 by lia; rewrite (fill_get _ _ _ _ _ _ E3), (blit_get _ _ _ _ _ _ _ E1).
        replace (k - 0) with k by lia; simpl.
        destruct (Nat.leb_spec clen k), (Nat.ltb_spec k (clen + (a_len - clen))), (Nat.ltb_spec k clen),
          (Nat.ltb_spec k (a_len + length carry)); simpl; auto; lia.
      * rewrite nth_error_app2 by lia; rewrite (fill_get _ _ _ _ _ _ E2); simpl.
        replace (length o2) with a_len by lia.
        destruct (Nat.ltb_spec k (a_len + length carry)).
        -- destruct (Nat.ltb_spec (k - a_len) clen), (Nat.ltb_spec k clen); simpl; auto; lia.
        -- destruct (Nat.ltb_spec (k - a_len) clen); try lia; apply nth_error_None; lia.
    + destruct (blit_some carry 0 out 0 a_len) as [o1 E1]; try lia; rewrite E1; simpl.
      destruct (blit_some carry a_len carry 0 (clen - a_len)) as [c1 E2]; try lia; rewrite E2; simpl.
      pose proof (blit_length _ _ _ _ _ _ E1) as L1; pose proof (blit_length _ _ _ _ _ _ E2) as L2.
      destruct (fill_some c1 (clen - a_len) a_len zero) as [c2 E3]; try lia; rewrite E3; simpl.
      pose proof (fill_length _ _ _ _ _ E3) as L3.
      exists o1, c2; repeat split; try lia.
      intros k; unfold prepared.
      destruct (Nat.ltb_spec k a_len) as [Hk|Hk].
      * rewrite nth_error_app1 by lia; rewrite (blit_get _ _ _ _ _ _ _ E1); simpl.
        replace (k - 0) with k by lia.
        destruct (Nat.ltb_spec k a_len), (Nat.ltb_spec k clen),
          (Nat.ltb_spec k (a_len + length carry)); simpl; auto; lia.
      * rewrite nth_error_app2 by lia; rewrite (fill_get _ _ _ _ _ _ E3), (blit_get _ _ _ _ _ _ _ E2).
        replace (length o1) with a_len by lia.
        replace (k - a_len - 0) with (k - a_len) by lia.
        replace (a_len + (k - a_len)) with k by lia.
        bd; auto; try lia; apply nth_error_None; lia.
  - destruct (fill_some out 0 a_len zero) as [o1 E1]; try lia; rewrite E1; simpl.
    pose proof (fill_length _ _ _ _ _ E1) as L1.
    exists o1, carry; repeat split; try lia.
    intros k; unfold prepared.
    destruct (Nat.ltb_spec k a_len) as [Hk|Hk].
    + rewrite nth_error_app1 by lia; rewrite (fill_get _ _ _ _ _ _ E1); simpl.
      destruct (Nat.ltb_spec k a_len), (Nat.ltb_spec k clen), (Nat.ltb_spec k (a_len + length carry)); simpl; auto; lia.
    + rewrite nth_error_app2 by lia; replace (length o1) with a_len by lia.
      destruct (Nat.ltb_spec k (a_len + length carry)), (Nat.ltb_spec k clen), (Nat.ltb_spec (k - a_len) clen); try lia; auto.
      apply nth_error_None; lia.
Qed.

(** complete functional description of one call, for every documented argument combination *)
Lemma convolve_spec a a_len b b_len clen carry out :
  a_len <= length a -> 0 < b_len -> b_len <= length b -> length out = a_len ->
  clen <= length carry -> b_len - 1 <= length carry ->
  exists out' carry', sp_convolve a a_len b b_len clen carry out = Some (out', carry') /\
    length out' = length out /\ length carry' = length carry /\
    forall k, k < a_len + length carry ->
      exists o, prepared a_len clen carry k = Some o /\
      nth_error (out' ++ carry') k = Some (conv_sample o (firstn a_len a) (firstn b_len b) k).
Proof.
  intros Ha Hb0 Hb Ho Hc Hcb; unfold ConvolveModel.sp_convolve.
  destruct (prepare_spec a_len clen carry out Ho Hc) as (o1 & c1 & E1 & L1 & Lc1 & G1).
  rewrite E1; simpl.
  set (size := if a_len <? b_len then 0 else a_len - (b_len - 1)).
  assert (Hsz : size <= a_len /\ (size = 0 \/ size + b_len - 1 <= a_len)).
  { unfold size; destruct (Nat.ltb_spec a_len b_len); lia. }
  assert (exists o2, (if 0 <? size then sp_convolve_one a size b b_len o1 else Some o1) = Some o2 /\
    rows a b b_len 0 size o1 o2) as (o2 & E2 & R2).
  { destruct (Nat.ltb_spec 0 size) as [Hs|Hs].
    - apply convolve_one_spec; lia.
    - exists o1; split; auto; replace size with 0 by lia; split; auto.
      intros k; simpl; destruct (nth_error o1 k); auto. }
  assert (L2 : length o2 = length o1) by (destruct R2; auto).
  change (if Nat.leb 1 size then sp_convolve_one a size b b_len o1 else Some o1)
    with (if 0 <? size then sp_convolve_one a size b b_len o1 else Some o1).
  rewrite E2; simpl.
  destruct (convolve_tail_spec a a_len b b_len size o2 c1) as (o3 & c3 & E3 & L3 & R3); try lia.
  exists o3, c3; split; [exact E3|]; split; [lia|].
  destruct R3 as [RL RG]; rewrite !app_length in RL.
  split; [lia|]; intros k Hk.
  specialize (G1 k); destruct (Nat.ltb_spec k (a_len + length carry)); [|lia].
  destruct (nth_error_some (o1 ++ c1) k) as [o Eo]; [rewrite app_length; lia|].
  exists o; split; [congruence|].
  rewrite (conv_sample_fold_len o (firstn a_len a) (firstn b_len b) k a_len) by (rewrite firstn_length; lia).
  assert (Ext : forall acc lo n, lo + n <= a_len -> fold_left (cstep a (firstn b_len b) k) (seq lo n) acc
     = fold_left (cstep (firstn a_len a) (firstn b_len b) k) (seq lo n) acc).
  { intros; apply fold_left_ext_in; intros ac i Hi; apply in_seq in Hi; unfold cstep.
    rewrite (nth_error_firstn a a_len i) by lia; reflexivity. }
  rewrite RG.
  assert (Hseq : seq 0 a_len = seq 0 size ++ seq size (a_len - size)).
  { replace a_len with (size + (a_len - size)) at 1 by lia; apply seq_app. }
  rewrite Hseq, fold_left_app.
  destruct R2 as [_ R2].
  destruct (Nat.lt_ge_cases k (length o2)) as [Hk2|Hk2].
  - rewrite nth_error_app1 by lia; rewrite R2.
    rewrite nth_error_app1 in Eo by lia; rewrite Eo.
    rewrite !Ext by lia; reflexivity.
  - rewrite nth_error_app2 by lia.
    rewrite nth_error_app2 in Eo by lia; rewrite L2, Eo.
    rewrite Ext by lia; do 2 f_equal; symmetry.
    apply fold_left_id_in; intros ac i Hi; apply in_seq in Hi; unfold cstep.
    destruct (Nat.leb_spec i k); auto; destruct (nth_error (firstn a_len a) i); auto.
    destruct (nth_error (firstn b_len b) (k - i)) eqn:Eb; auto.
    apply nth_error_lt in Eb; rewrite firstn_length in Eb; lia.
Qed.

(** ** Tail beyond the end of the convolution *)
Lemma conv_sample_beyond acc a b k : length a + length b <= S k -> conv_sample acc a b k = acc.
Proof.
  intros H; rewrite conv_sample_fold; apply fold_left_id_in; intros ac i Hi; apply in_seq in Hi; unfold cstep.
  destruct (Nat.leb_spec i k); auto.
  destruct (nth_error a i) eqn:Ea; auto; destruct (nth_error b (k - i)) eqn:Eb; auto.
  apply nth_error_lt in Ea, Eb; lia.
Qed.

Lemma conv_sample_nil acc b k : conv_sample acc [] b k = acc.
Proof.
  rewrite conv_sample_fold; apply fold_left_id_in; intros ac i _; unfold cstep.
  rewrite (proj2 (nth_error_None (@nil V) i)) by (simpl; lia); destruct (i <=? k); reflexivity.
Qed.

Notation conv_samples := (conv_samples V zero add mul).

(** processing one more segment, exactly sized carryover *)
Lemma convolve_next p a b carry out :
  0 < length b -> length out = length a ->
  carry = conv_samples p b (length p) (length b - 1) ->
  sp_convolve a (length a) b (length b) (length b - 1) carry out =
    Some (conv_samples (p ++ a) b (length p) (length a), conv_samples (p ++ a) b (length (p ++ a)) (length b - 1)).
Proof.
  intros Hb Ho Hc.
  assert (HLc : length carry = length b - 1) by (rewrite Hc; unfold ConvolveSpec.conv_samples; rewrite map_length, seq_length; auto).
  destruct (convolve_spec a (length a) b (length b) (length b - 1) carry out) as (o & c & E & L1 & L2 & G); try lia.
  rewrite E; rewrite !firstn_all in G.
  assert (Hprep : forall k v, k < length a + length carry -> prepared (length a) (length b - 1) carry k = Some v ->
    v = conv_sample zero p b (length p + k)).
  { intros k v Hk; unfold prepared.
    assert (Hcg : forall j, j < length b - 1 -> nth_error carry j = Some (conv_sample zero p b (length p + j))).
    { intros j Hj; rewrite Hc; unfold ConvolveSpec.conv_samples; apply map_nth_error_seq; auto. }
    assert (Hz : length b - 1 <= k -> conv_sample zero p b (length p + k) = zero).
    { intros; apply conv_sample_beyond; lia. }
    bd; try lia.
    - rewrite Hcg by lia; congruence.
    - intros E'; rewrite Hz by lia; congruence.
    - rewrite Hcg by lia; congruence.
    - intros E'; rewrite Hz by lia; congruence. }
  assert (Hall : forall k, k < length a + length carry ->
     nth_error (o ++ c) k = Some (conv_sample zero (p ++ a) b (length p + k))).
  { intros k Hk; destruct (G k Hk) as (v & Ev & Hv); rewrite Hv; apply Hprep in Ev; [|auto]; subst v.
    rewrite conv_sample_app; bd; [lia|]; do 2 f_equal; lia. }
  f_equal; f_equal.
  - apply list_eq_tab; [lia|]; intros i Hi.
    rewrite <- Hall by lia; rewrite nth_error_app1 by lia; reflexivity.
  - apply list_eq_tab; [lia|]; intros i Hi.
    specialize (Hall (length o + i)); rewrite nth_error_app2 in Hall by lia.
    replace (length o + i - length o) with i in Hall by lia.
    rewrite Hall by lia; do 2 f_equal; rewrite app_length; lia.
Qed.

Lemma conv_samples_nil b from n : conv_samples [] b from n = repeat zero n.
Proof.
  unfold ConvolveSpec.conv_samples; revert from; induction n as [|n IH]; intros from; simpl; auto.
  rewrite conv_sample_nil, IH; reflexivity.
Qed.

Lemma conv_samples_plus p b from n m : conv_samples p b from (n + m) = conv_samples p b from n ++ conv_samples p b (from + n) m.
Proof. unfold ConvolveSpec.conv_samples; rewrite seq_app, map_app; reflexivity. Qed.

Lemma conv_samples_prefix p q b from n : from + n <= length p -> conv_samples (p ++ q) b from n = conv_samples p b from n.
Proof.
  intros H; unfold ConvolveSpec.conv_samples; apply map_ext_in; intros k Hk; apply in_seq in Hk.
  rewrite conv_sample_app; bd; auto; lia.
Qed.

Lemma convolve_stream_spec junk b :
  0 < length b -> (forall n, length (junk n) = n) ->
  forall segments p,
  convolve_stream V zero add mul junk b (conv_samples p b (length p) (length b - 1)) segments =
    Some (conv_samples (p ++ concat segments) b (length p) (length (concat segments)),
          conv_samples (p ++ concat segments) b (length (p ++ concat segments)) (length b - 1)).
Proof.
  intros Hb Hj; induction segments as [|a rest IH]; intros p.
  - simpl; rewrite app_nil_r; reflexivity.
  - cbn [convolve_stream concat].
    rewrite (convolve_next p a b _ (junk (length a))) by auto.
    cbn [bind]; rewrite IH; cbn [bind]; f_equal.
    rewrite app_assoc; f_equal.
    rewrite (app_length a), conv_samples_plus, <- app_length.
    f_equal; symmetry; apply conv_samples_prefix; rewrite app_length; lia.
Qed.

Lemma overlap_add_snoc segs : forall acc a b t,
  overlap_add V add mul acc (segs ++ [(a, b)]) t =
  let n := length (concat (map fst segs)) in
  if t <? n then overlap_add V add mul acc segs t
  else conv_sample (overlap_add V add mul acc segs t) a b (t - n).
Proof.
  induction segs as [|[a0 b0] segs IH]; intros acc a b t; simpl.
  - replace (t - 0) with t by lia; destruct (t <? length a); reflexivity.
  - rewrite IH; cbv zeta; rewrite app_length.
    bd; try lia; auto.
    f_equal; lia.
Qed.

Lemma overlap_add_same b : forall segs acc t,
  overlap_add V add mul acc (map (fun a => (a, b)) segs) t = conv_sample acc (concat segs) b t.
Proof.
  induction segs as [|a segs IH]; intros acc t; simpl.
  - rewrite conv_sample_nil; reflexivity.
  - rewrite IH, conv_sample_app; reflexivity.
Qed.
End Proofs.
