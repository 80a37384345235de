From Verif Require Import Base ConvolveModel ConvolveSpec ConvolveProofs FilterModel FilterSpec.

Section Proofs.
Variable V : Type.
Variables (zero : V) (add mul : V -> V -> V).
Variable ir_f : nat -> list Z -> option (list V).
Variable junk : nat -> list V.
Variable junkb : nat -> list Z.
Hypothesis junk_len : forall n, length (junk n) = n.
Hypothesis junkb_len : forall n, length (junkb n) = n.
Let mem_ok : nat -> bool := fun _ => true.

Notation heap := (heap V).
Notation load := (load V).
Notation store := (store V).
Notation free := (free V).
Notation malloc := (malloc V mem_ok).
Notation extend_carryover := (extend_carryover V zero mem_ok junk).
Notation state_update := (state_update V zero ir_f mem_ok junk).
Notation state_set := (state_set V zero ir_f mem_ok junk junkb).
Notation convolution_filter := (convolution_filter V zero add mul ir_f mem_ok junk junkb).
Notation run_calls := (run_calls V zero add mul ir_f mem_ok junk junkb).
Notation overlap_add := (overlap_add V add mul).
Notation OSamples := (OSamples V).
Notation OBytes := (OBytes V).
Notation OState := (OState V).

Definition size (h : heap) := length (cells V h).

Lemma load_lt (h : heap) p o : load h p = Some o -> p < size h.
Proof.
  unfold FilterModel.load, size; destruct (nth_error (cells V h) p) as [[o'|]|] eqn:E; try discriminate.
  intros _; eapply nth_error_lt; eauto.
Qed.

Lemma set_cell_load (h : heap) p o h' q :
  set_cell V h p o = Some h' -> size h' = size h /\ load h' q = if q =? p then o else load h q.
Proof.
  unfold set_cell; intros E; apply bind_some in E; destruct E as [c [E1 E2]]; injection E2 as <-.
  unfold size, FilterModel.load; simpl; split; [eapply aset_length; eauto|].
  rewrite (aset_get _ _ _ _ _ E1); destruct (q =? p); auto; destruct o; auto.
Qed.

Lemma set_cell_some (h : heap) p o o' : load h p = Some o -> exists h', set_cell V h p o' = Some h'.
Proof.
  intros H; apply load_lt in H; unfold set_cell, size in *.
  destruct (aset_some (cells V h) p o' H) as [c E]; rewrite E; simpl; eauto.
Qed.

Lemma store_ok (h : heap) p o o0 : load h p = Some o0 ->
  exists h', store h p o = Some h' /\ size h' = size h /\ forall q, load h' q = if q =? p then Some o else load h q.
Proof.
  intros H; unfold FilterModel.store; rewrite H; simpl.
  destruct (set_cell_some h p o0 (Some o) H) as [h' E]; exists h'; split; auto; split.
  - apply (set_cell_load _ _ _ _ 0 E).
  - intros q; apply (set_cell_load _ _ _ _ q E).
Qed.

Lemma free_ok (h : heap) p o0 : load h p = Some o0 ->
  exists h', free h (Some p) = Some h' /\ size h' = size h /\ forall q, load h' q = if q =? p then None else load h q.
Proof.
  intros H; unfold FilterModel.free; rewrite H; simpl.
  destruct (set_cell_some h p o0 None H) as [h' E]; exists h'; split; auto; split.
  - apply (set_cell_load _ _ _ _ 0 E).
  - intros q; apply (set_cell_load _ _ _ _ q E).
Qed.

Lemma malloc_ok (h : heap) o :
  exists h', malloc h o = (Some (size h), h') /\ size h' = S (size h) /\
    forall q, load h' q = if q =? size h then Some o else load h q.
Proof.
  unfold FilterModel.malloc, mem_ok; eexists; split; [reflexivity|]; unfold size, FilterModel.load; simpl; split.
  - rewrite app_length; simpl; lia.
  - intros q; bd.
    + subst q; rewrite nth_error_app2, Nat.sub_diag by lia; reflexivity.
    + destruct (Nat.lt_ge_cases q (length (cells V h))).
      * rewrite nth_error_app1 by lia; reflexivity.
      * rewrite (proj2 (nth_error_None _ _)) by (rewrite app_length; simpl; lia).
        rewrite (proj2 (nth_error_None _ _)) by lia; reflexivity.
Qed.

Lemma load_none_ge (h : heap) p : size h <= p -> load h p = None.
Proof.
  unfold size, FilterModel.load; intros H; rewrite (proj2 (nth_error_None _ _)); auto.
Qed.

Variable h0 : heap.
Let N0 := size h0.

(** the state between releasing the old impulse response and installing the new one *)
Record pre (h : heap) (sp : nat) (s : fstate) (buf : list Z) (cl : list V) : Prop := {
  pre_state : load h sp = Some (OState s);
  pre_args : load h (st_args s) = Some (OBytes buf);
  pre_len : st_args_len s <= length buf;
  pre_carry : match st_carryover s with
    | Some c => load h c = Some (OSamples cl) /\ N0 <= c /\ length cl = st_carryover_alloc_len s /\
        st_ir_len s - 1 <= length cl /\ 0 < st_ir_len s
    | None => cl = [] /\ st_ir_len s <= 1
    end;
  pre_sp : N0 <= sp;
  pre_args_p : N0 <= st_args s;
  pre_frame : N0 <= size h /\ forall p, p < N0 -> load h p = load h0 p;
  pre_owned : forall p, N0 <= p -> load h p <> None -> p = sp \/ p = st_args s \/ st_carryover s = Some p
}.

(** the state between calls *)
Record inv (h : heap) (sp : nat) (s : fstate) (buf : list Z) (irp : nat) (ir cl : list V) : Prop := {
  inv_state : load h sp = Some (OState s);
  inv_args : load h (st_args s) = Some (OBytes buf);
  inv_len : st_args_len s <= length buf;
  inv_ir : st_ir s = Some irp;
  inv_ir_l : load h irp = Some (OSamples ir);
  inv_ir_len : st_ir_len s = length ir;
  inv_ir_pos : 0 < length ir;
  inv_carry_len : st_carryover_len s = length ir - 1;
  inv_carry : match st_carryover s with
    | Some c => load h c = Some (OSamples cl) /\ N0 <= c /\ c <> irp /\ length cl = st_carryover_alloc_len s /\
        length ir - 1 <= length cl
    | None => cl = [] /\ length ir = 1
    end;
  inv_sp : N0 <= sp;
  inv_args_p : N0 <= st_args s;
  inv_ir_p : N0 <= irp;
  inv_frame : N0 <= size h /\ forall p, p < N0 -> load h p = load h0 p;
  inv_owned : forall p, N0 <= p -> load h p <> None -> p = sp \/ p = st_args s \/ p = irp \/ st_carryover s = Some p
}.

Definition carry_relation (old_len new_len : nat) (cl cl' : list V) : Prop :=
  (forall j, j < old_len -> nth_error cl' j = nth_error cl j) /\
  (forall j, old_len <= j < new_len -> nth_error cl' j = Some zero).

Ltac ne := repeat match goal with
  | H : context [?a =? ?b] |- _ => destruct (Nat.eqb_spec a b) in H
  | |- context [?a =? ?b] => destruct (Nat.eqb_spec a b)
  end; try congruence; try lia; auto.

Lemma extend_ok h sp s buf cl irp ir :
  pre h sp s buf cl -> 0 < length ir ->
  forall h1, size h1 = S (size h) -> irp = size h -> (forall q, load h1 q = if q =? irp then Some (OSamples ir) else load h q) ->
  exists h2 c al cl', extend_carryover s (length ir) h1 = Some (Ok (c, al), h2) /\
    size h1 <= size h2 /\
    carry_relation (st_ir_len s - 1) (length ir - 1) cl cl' /\
    match c with
    | Some c => load h2 c = Some (OSamples cl') /\ N0 <= c /\ c <> irp /\ c <> sp /\ c <> st_args s /\ length cl' = al /\ length ir - 1 <= length cl'
    | None => cl' = [] /\ length ir = 1
    end /\
    (forall q, c <> Some q -> load h2 q = if (match st_carryover s with Some c0 => q =? c0 | None => false end) then None else load h1 q).
Proof.
  intros P Hir h1 Hs1 Hirp HL1; destruct P as [Pst Par Plen Pca Psp Pap [Pf1 Pf2] Pow].
  pose proof (load_lt _ _ _ Pst) as Bsp; pose proof (load_lt _ _ _ Par) as Bap.
  unfold FilterModel.extend_carryover.
  destruct (st_carryover s) as [c|] eqn:Ec.
  - destruct Pca as (Lc & Nc & Al & Irl & Irp).
    pose proof (load_lt _ _ _ Lc) as Bc.
    assert (L1c : load h1 c = Some (OSamples cl)) by (rewrite HL1; ne).
    destruct (Nat.ltb_spec (st_ir_len s) (length ir)) as [Hgrow|Hgrow].
    + destruct (Nat.ltb_spec (st_carryover_alloc_len s) (length ir - 1)) as [Hal|Hal].
      * unfold load_samples; rewrite L1c; cbn [bind].
        destruct (malloc_ok h1 (OSamples (firstn (length ir - 1) cl ++ junk (length ir - 1 - length cl)))) as (h2 & E2 & S2 & L2).
        rewrite E2.
        assert (L2c : load h2 c = Some (OSamples cl)) by (rewrite L2; ne).
        destruct (free_ok h2 c _ L2c) as (h3 & E3 & S3 & L3); rewrite E3; cbn [bind].
        assert (L3n : load h3 (size h1) = Some (OSamples (firstn (length ir - 1) cl ++ junk (length ir - 1 - length cl)))).
        { rewrite L3, L2; ne. }
        rewrite L3n; cbn [bind].
        assert (Lnew : length (firstn (length ir - 1) cl ++ junk (length ir - 1 - length cl)) = length ir - 1).
        { rewrite app_length, firstn_length, junk_len; lia. }
        destruct (fill_some (firstn (length ir - 1) cl ++ junk (length ir - 1 - length cl)) (st_ir_len s - 1) (length ir - st_ir_len s) zero) as [l El]; [lia|]; rewrite El; cbn [bind].
        destruct (store_ok h3 (size h1) (OSamples l) _ L3n) as (h4 & E4 & S4 & L4); rewrite E4; cbn [bind].
        pose proof (fill_length _ _ _ _ _ El) as Ll.
        exists h4, (Some (size h1)), (length ir - 1), l; split; [reflexivity|]; split; [lia|]; split.
        { split; intros j Hj; rewrite (fill_get _ _ _ _ _ _ El).
          - replace ((st_ir_len s - 1 <=? j) && (j <? st_ir_len s - 1 + (length ir - st_ir_len s))) with false by (symmetry; bd; auto; lia).
            rewrite nth_error_app1 by (rewrite firstn_length; lia); apply nth_error_firstn; lia.
          - replace ((st_ir_len s - 1 <=? j) && (j <? st_ir_len s - 1 + (length ir - st_ir_len s))) with true by (symmetry; bd; auto; lia).
            reflexivity. }
        split.
        { repeat split; try lia. rewrite L4; ne. }
        intros q Hq; rewrite L4, L3, L2; assert (q <> size h1) by congruence; ne.
      * unfold load_samples; rewrite L1c; cbn [bind].
        destruct (fill_some cl (st_ir_len s - 1) (length ir - st_ir_len s) zero) as [l El]; [lia|]; rewrite El; cbn [bind].
        destruct (store_ok h1 c (OSamples l) _ L1c) as (h4 & E4 & S4 & L4); rewrite E4; cbn [bind].
        pose proof (fill_length _ _ _ _ _ El) as Ll.
        exists h4, (Some c), (st_carryover_alloc_len s), l; split; [reflexivity|]; split; [lia|]; split.
        { split; intros j Hj; rewrite (fill_get _ _ _ _ _ _ El).
          - replace ((st_ir_len s - 1 <=? j) && (j <? st_ir_len s - 1 + (length ir - st_ir_len s))) with false by (symmetry; bd; auto; lia).
            reflexivity.
          - replace ((st_ir_len s - 1 <=? j) && (j <? st_ir_len s - 1 + (length ir - st_ir_len s))) with true by (symmetry; bd; auto; lia).
            reflexivity. }
        split.
        { repeat split; try lia; try congruence. rewrite L4; ne. }
        intros q Hq; rewrite L4; assert (q <> c) by congruence; ne.
    + exists h1, (Some c), (st_carryover_alloc_len s), cl; split; [reflexivity|]; split; [lia|]; split.
      { split; intros j Hj; [reflexivity|lia]. }
      split.
      { repeat split; try lia; try congruence; auto. }
      intros q Hq; assert (q <> c) by congruence; ne.
  - destruct Pca as (-> & Irl).
    destruct (Nat.ltb_spec 0 (length ir - 1)) as [H1|H1].
    + destruct (malloc_ok h1 (OSamples (repeat zero (length ir - 1)))) as (h2 & E2 & S2 & L2).
      rewrite E2.
      exists h2, (Some (size h1)), (length ir - 1), (repeat zero (length ir - 1)); split; [reflexivity|]; split; [lia|]; split.
      { split; intros j Hj; [lia|apply nth_error_repeat; lia]. }
      split.
      { rewrite repeat_length; repeat split; try lia. rewrite L2; ne. }
      intros q Hq; rewrite L2; assert (q <> size h1) by congruence; ne.
    + exists h1, None, (length ir - 1), []; split; [reflexivity|]; split; [lia|]; split.
      { split; intros j Hj; lia. }
      split; [split; [auto|lia]|]; auto.
Qed.

Lemma state_update_ok h sp s buf cl f args reg os ir :
  pre h sp s buf cl -> length args <= length buf -> ir_f f args = Some ir -> 0 < length ir ->
  exists h' s' buf' irp cl', state_update f args (length args) sp reg os h = Some (Ok tt, Some sp, h') /\
    inv h' sp s' buf' irp ir cl' /\ st_ir_f s' = st_ir_f s /\ st_args_len s' = st_args_len s /\
    length buf' = length buf /\ firstn (length args) buf' = args /\ skipn (length args) buf' = skipn (length args) buf /\
    carry_relation (st_ir_len s - 1) (length ir - 1) cl cl'.
Proof.
  intros P Hargs Hf Hpos; pose proof P as P0.
  destruct P as [Pst Par Plen Pca Psp Pap [Pf1 Pf2] Pow].
  assert (Dsa : st_args s <> sp) by (intros e; rewrite e in Par; congruence).
  unfold FilterModel.state_update, load_state, load_bytes; rewrite Pst; cbn [bind]; rewrite Par; cbn [bind].
  destruct (blit_some args 0 buf 0 (length args)) as [buf' Eb]; try lia; rewrite Eb; cbn [bind].
  destruct (store_ok h (st_args s) (OBytes buf') _ Par) as (h1 & E1 & S1 & L1); rewrite E1; cbn [bind].
  rewrite Hf.
  destruct (malloc_ok h1 (OSamples ir)) as (h2 & E2 & S2 & L2); rewrite E2.
  pose proof (blit_length _ _ _ _ _ _ Eb) as Lb.
  assert (P1 : pre h1 sp s buf' cl).
  { constructor; auto.
    - rewrite L1; ne.
    - rewrite L1; ne.
    - lia.
    - destruct (st_carryover s) as [c|]; auto; destruct Pca as (Lc & Nc & Al & Irl); repeat split; auto; try lia.
      rewrite L1; ne.
    - split; [lia|]; intros p Hp; rewrite L1; ne.
    - intros p Hp; rewrite L1; destruct (Nat.eqb_spec p (st_args s)); [auto|]; apply Pow; auto. }
  destruct (extend_ok h1 sp s buf' cl (size h1) ir P1 Hpos h2 S2 eq_refl L2) as (h3 & c & al & cl' & E3 & S3 & CR & Hc & L3).
  rewrite E3; cbn [bind].
  pose proof (load_lt _ _ _ Pst) as Bsp; pose proof (load_lt _ _ _ Par) as Bap.
  assert (Hcsp : c <> Some sp) by (destruct c; [|discriminate]; intros e; injection e as ->; tauto).
  assert (Hca : c <> Some (st_args s)) by (destruct c; [|discriminate]; intros e; injection e as ->; tauto).
  assert (Hci : c <> Some (size h1)) by (destruct c; [|discriminate]; intros e; injection e as ->; tauto).
  assert (Hold : forall q, st_carryover s = Some q -> q <> sp /\ q <> st_args s /\ q < size h).
  { intros q Hq; rewrite Hq in Pca; destruct Pca as (Lc & _); repeat split; try (intros ->; congruence).
    eapply load_lt; eauto. }
  assert (L3sp : load h3 sp = Some (OState s)).
  { rewrite (L3 sp Hcsp), L2, L1.
    destruct (st_carryover s) as [c0|]; [destruct (Hold c0 eq_refl)|]; ne. }
  pose (s4 := {| st_carryover := c; st_carryover_len := length ir - 1;
               st_carryover_alloc_len := al; st_ir := Some (size h1); st_ir_f := st_ir_f s;
               st_args := st_args s; st_args_len := st_args_len s; st_ir_len := length ir |}).
  destruct (store_ok h3 sp (OState s4) _ L3sp) as (h4 & E4 & S4 & L4).
  unfold s4 in E4; rewrite E4; cbn [bind].
  exists h4, s4, buf', (size h1), cl'; split; [reflexivity|].
  split.
  { constructor; unfold s4; cbn [st_carryover st_carryover_len st_carryover_alloc_len st_ir st_ir_f st_args st_args_len st_ir_len]; auto; try lia.
    - rewrite L4; ne.
    - rewrite L4, (L3 _ Hca), L2, L1.
      destruct (st_carryover s) as [c0|]; [destruct (Hold c0 eq_refl) as (? & ? & ?)|]; ne.
    - rewrite L4, (L3 _ Hci), L2.
      destruct (st_carryover s) as [c0|]; [destruct (Hold c0 eq_refl) as (? & ? & ?)|]; ne.
    - destruct c as [c|]; auto; destruct Hc as (Lc & Nc & D1 & D2 & D3 & Al & Al2); repeat split; auto.
      rewrite L4; ne.
    - split; [lia|]; intros p Hp; rewrite L4.
      assert (c <> Some p) by (destruct c; [|discriminate]; intros e; injection e as ->; lia).
      rewrite (L3 p H), L2, L1.
      destruct (st_carryover s) as [c0|]; [destruct Pca as (? & ? & ?)|]; ne.
    - intros p Hp; rewrite L4; destruct (Nat.eqb_spec p sp) as [->|D]; [auto|].
      destruct c as [c|]; [destruct (Nat.eq_dec c p) as [->|D2]; [auto|] |].
      + rewrite L3, L2, L1 by congruence.
        destruct (st_carryover s) as [c0|]; ne; intros Hl; destruct (Pow p Hp Hl) as [?|[?|e]]; auto; try congruence.
      + rewrite L3, L2, L1 by congruence.
        destruct (st_carryover s) as [c0|]; ne; intros Hl; destruct (Pow p Hp Hl) as [?|[?|e]]; auto; try congruence. }
  repeat split; auto.
  - apply nth_error_length_eq; [rewrite firstn_length; lia|].
    intros i Hi; rewrite firstn_length in Hi; rewrite nth_error_firstn by lia.
    rewrite (blit_get _ _ _ _ _ _ _ Eb); bd; try lia; f_equal; lia.
  - apply nth_error_length_eq; [rewrite !skipn_length; lia|].
    intros i Hi; rewrite !nth_error_skipn.
    rewrite (blit_get _ _ _ _ _ _ _ Eb); bd; try lia; reflexivity.
  - apply CR.
  - apply CR.
Qed.

Lemma bytes_equal_ok buf args : length args <= length buf ->
  exists r, bytes_equal buf args (length args) = Some r /\ (r = true <-> firstn (length args) buf = args).
Proof.
  intros H; unfold bytes_equal.
  rewrite (slice_some buf 0 (length args)) by lia; rewrite (slice_some args 0 (length args)) by lia; cbn [bind skipn].
  eexists; split; [reflexivity|].
  rewrite (firstn_all args); destruct (list_eq_dec _ _ _) as [e|e]; split; auto; try discriminate; contradiction.
Qed.

(** the known part of the argument buffer after storing other arguments *)
Definition overwritten (n : nat) (args known : list Z) : list Z := firstn n (args ++ skipn (length args) known).

Lemma state_set_new f args ir :
  ir_f f args = Some ir -> 0 < length ir ->
  exists h' sp s' buf' irp cl', state_set f args (length args) None h0 = Some (Ok tt, Some sp, h') /\
    inv h' sp s' buf' irp ir cl' /\ st_ir_f s' = f /\ st_args_len s' = length args /\
    firstn (length args) buf' = args /\
    carry_relation 0 (length ir - 1) [] cl'.
Proof.
  intros Hf Hpos; unfold FilterModel.state_set.
  match goal with |- context [malloc h0 ?o] => destruct (malloc_ok h0 o) as (h1 & E1 & S1 & L1) end.
  rewrite E1.
  destruct (malloc_ok h1 (OBytes (junkb (length args)))) as (h2 & E2 & S2 & L2); rewrite E2.
  assert (L2s : exists o, load h2 (size h0) = Some o).
  { rewrite L2, L1; ne; eauto. }
  destruct L2s as [o L2s].
  pose (s := {| st_carryover := None; st_carryover_len := 0; st_carryover_alloc_len := 0;
       st_ir := None; st_ir_f := f; st_args := size h1; st_args_len := length args; st_ir_len := 0 |}).
  destruct (store_ok h2 (size h0) (OState s) _ L2s) as (h3 & E3 & S3 & L3).
  unfold s in E3; rewrite E3; cbn [bind].
  assert (P : pre h3 (size h0) s (junkb (length args)) []).
  { constructor; unfold s; cbn [st_carryover st_args st_args_len st_ir_len]; unfold N0; auto; try lia.
    - rewrite L3; ne.
    - rewrite L3, L2; ne.
    - rewrite junkb_len; lia.
    - split; [lia|]; intros p Hp; rewrite L3, L2, L1; ne.
    - intros p Hp; rewrite L3, L2, L1; ne. rewrite load_none_ge by lia; congruence. }
  assert (Hla : length args <= length (junkb (length args))) by (rewrite junkb_len; lia).
  destruct (state_update_ok h3 (size h0) s (junkb (length args)) [] f args [size h1; size h0] None ir P Hla Hf Hpos)
    as (h4 & s4 & buf4 & irp4 & cl4 & E4 & I4 & F4 & A4 & B4 & G4 & K4 & C4).
  rewrite E4; exists h4, (size h0), s4, buf4, irp4, cl4; splits; auto; apply C4.
Qed.

Lemma state_set_existing h sp s buf irp ir cl f args ir1 :
  inv h sp s buf irp ir cl -> ir_f f args = Some ir1 -> 0 < length ir1 ->
  exists h' s' buf' irp' ir' cl', state_set f args (length args) (Some sp) h = Some (Ok tt, Some sp, h') /\
    inv h' sp s' buf' irp' ir' cl' /\ st_ir_f s' = st_ir_f s /\ st_args_len s' = st_args_len s /\
    firstn (length args) buf' = args /\
    carry_relation (length ir - 1) (length ir' - 1) cl cl' /\
    (ir' = ir1 \/ (st_ir_f s = f /\ st_args_len s = length args /\ firstn (length args) buf = args /\ ir' = ir)) /\
    (st_ir_f s = f /\ firstn (st_args_len s) buf = args /\ ir' = ir /\ firstn (st_args_len s) buf' = firstn (st_args_len s) buf \/
     ~ (st_ir_f s = f /\ firstn (st_args_len s) buf = args) /\ ir' = ir1 /\
       firstn (st_args_len s) buf' = overwritten (st_args_len s) args (firstn (st_args_len s) buf)).
Proof.
  intros I Hf Hpos; pose proof I as I0.
  destruct I as [Ist Iar Ilen Iir Iirl Iirn Iirpos Icl Ica Isp Iap Iip [If1 If2] Iow].
  unfold FilterModel.state_set, load_state, load_bytes; rewrite Ist; cbn [bind]; rewrite Iar; cbn [bind].
  assert (Esame : exists same, (if (st_ir_f s =? f) && (length args =? st_args_len s) then bytes_equal buf args (length args) else Some false) = Some same /\
    (same = true <-> st_ir_f s = f /\ st_args_len s = length args /\ firstn (length args) buf = args)).
  { destruct (Nat.eqb_spec (st_ir_f s) f); [|exists false; split; [reflexivity|split; [discriminate|tauto]]].
    destruct (Nat.eqb_spec (length args) (st_args_len s)) as [El|]; [|exists false; split; [reflexivity|split; [discriminate|]]; intros (_ & H & _); congruence].
    destruct (bytes_equal_ok buf args) as (r & Er & Hr); [lia|].
    exists r; split; [exact Er|]; rewrite Hr; split; [intros Hre; repeat split; auto|tauto]. }
  destruct Esame as (same & Es & Hsame); rewrite Es; cbn [bind].
  destruct same.
  - destruct (proj1 Hsame eq_refl) as (H1 & H2 & H3).
    exists h, s, buf, irp, ir, cl; splits; auto.
    + split; intros j Hj; auto; lia.
    + left; rewrite H2; auto.
  - assert (Hnot : ~ (st_ir_f s = f /\ firstn (st_args_len s) buf = args)).
    { intros [K1 K2]; assert (K3 : st_args_len s = length args) by (rewrite <- K2, firstn_length; lia).
      destruct Hsame as [_ Hs]; rewrite <- K3 in Hs; discriminate (Hs (conj K1 (conj eq_refl K2))). }
    clear Hsame Es.
    assert (Hold : forall q, st_carryover s = Some q -> q <> sp /\ q <> st_args s /\ q <> irp /\ q < size h /\ N0 <= q).
    { intros q Hq; rewrite Hq in Ica; destruct Ica as (Lc & Nc & Dc & _); repeat split; auto; try (intros ->; congruence).
      eapply load_lt; eauto. }
    assert (Dsa : st_args s <> sp) by (intros e; rewrite e in Iar; congruence).
    assert (Dsi : irp <> sp) by (intros e; rewrite e in Iirl; congruence).
    assert (Dai : irp <> st_args s) by (intros e; rewrite e in Iirl; congruence).
    pose proof (load_lt _ _ _ Ist) as Bsp; pose proof (load_lt _ _ _ Iar) as Bap; pose proof (load_lt _ _ _ Iirl) as Bip.
    (* the optional reallocation *)
    assert (R : exists h1 s1 buf1,
      (if st_args_len s <? length args
       then
        let (o, h) := malloc h (OBytes (firstn (length args) buf ++ junkb (length args - length buf))) in
        match o with
        | Some p =>
            h <- free h (Some (st_args s));;
            h <- store h sp (OState
                  {| st_carryover := st_carryover s; st_carryover_len := st_carryover_len s;
                     st_carryover_alloc_len := st_carryover_alloc_len s; st_ir := st_ir s; st_ir_f := st_ir_f s;
                     st_args := p; st_args_len := st_args_len s; st_ir_len := st_ir_len s |});; 
            Some (Ok tt, h)
        | None => Some (Fail, h)
        end
       else Some (Ok tt, h)) = Some (Ok tt, h1) /\
      inv h1 sp s1 buf1 irp ir cl /\ st_ir_f s1 = st_ir_f s /\ st_args_len s1 = st_args_len s /\ st_ir s1 = st_ir s /\
      length args <= length buf1 /\ (st_args_len s < length args /\ length buf1 = length args \/ length args <= st_args_len s /\ buf1 = buf)).
    { destruct (Nat.ltb_spec (st_args_len s) (length args)) as [Hg|Hg].
      - set (nb := firstn (length args) buf ++ junkb (length args - length buf)).
        assert (Lnb : length nb = length args) by (unfold nb; rewrite app_length, firstn_length, junkb_len; lia).
        destruct (malloc_ok h (OBytes nb)) as (h1 & E1 & S1 & L1); rewrite E1.
        assert (L1a : load h1 (st_args s) = Some (OBytes buf)) by (rewrite L1; ne).
        destruct (free_ok h1 _ _ L1a) as (h2 & E2 & S2 & L2); rewrite E2; cbn [bind].
        assert (L2s : load h2 sp = Some (OState s)) by (rewrite L2, L1; ne).
        pose (s1 := {| st_carryover := st_carryover s; st_carryover_len := st_carryover_len s;
                     st_carryover_alloc_len := st_carryover_alloc_len s; st_ir := st_ir s; st_ir_f := st_ir_f s;
                     st_args := size h; st_args_len := st_args_len s; st_ir_len := st_ir_len s |}).
        destruct (store_ok h2 sp (OState s1) _ L2s) as (h3 & E3 & S3 & L3); unfold s1 in E3; rewrite E3; cbn [bind].
        exists h3, s1, nb; split; [reflexivity|]; splits; auto; try lia; constructor; auto;
          unfold s1; cbn [st_carryover st_carryover_len st_carryover_alloc_len st_ir st_ir_f st_args st_args_len st_ir_len]; auto; try lia.
        + rewrite L3; ne.
        + rewrite L3, L2, L1; ne.
        + rewrite L3, L2, L1; ne.
        + destruct (st_carryover s) as [c|]; auto.
          destruct (Hold c eq_refl) as (? & ? & ? & ? & ?).
          destruct Ica as (Lc & Nc & Dc & Al & Al2); repeat split; auto.
          rewrite L3, L2, L1; ne.
        + split; [lia|]; intros p Hp; rewrite L3, L2, L1; ne.
        + intros p Hp; rewrite L3, L2, L1; ne. intros Hl; destruct (Iow p Hp Hl) as [?|[?|?]]; auto; congruence.
      - exists h, s, buf; splits; auto; lia. }
    destruct R as (h1 & s1 & buf1 & E1 & I1 & F1 & A1 & Ir1 & B1 & B2).
    match goal with |- context [bind ?m] => replace m with (Some (@Ok unit tt, h1)) by (symmetry; exact E1) end.
    cbn [bind]; clear E1.
    rewrite Iir.
    destruct I1 as [Jst Jar Jlen Jir Jirl Jirn Jirpos Jcl Jca Jsp Jap Jip [Jf1 Jf2] Jow].
    destruct (free_ok h1 irp _ Jirl) as (h2 & E2 & S2 & L2); rewrite E2; cbn [bind].
    assert (P : pre h2 sp s1 buf1 cl).
    { constructor; auto.
      - rewrite L2; ne.
      - assert (irp <> st_args s1) by (intros e; rewrite e in Jirl; congruence). rewrite L2; ne.
      - destruct (st_carryover s1) as [c|].
        + destruct Jca as (Lc & Nc & Dc & Al & Al2); rewrite Jirn; repeat split; auto; try lia.
          rewrite L2; ne.
        + destruct Jca; split; auto; lia.
      - split; [lia|]; intros p Hp; rewrite L2; ne.
      - intros p Hp; rewrite L2; ne. intros Hl; destruct (Jow p Hp Hl) as [?|[?|[?|?]]]; auto; congruence. }
    destruct (state_update_ok h2 sp s1 buf1 cl f args [] (Some sp) ir1 P B1 Hf Hpos)
      as (h4 & s4 & buf4 & irp4 & cl4 & E4 & I4 & F4 & A4 & B4 & G4 & K4 & C4).
    rewrite E4; exists h4, s4, buf4, irp4, ir1, cl4; splits; auto; try congruence.
    right; splits; auto.
    assert (Hb4 : buf4 = args ++ skipn (length args) buf1) by (rewrite <- G4 at 1; rewrite <- K4; rewrite firstn_skipn; reflexivity).
    rewrite Hb4; unfold overwritten; destruct B2 as [[B2 B3]|[B2 ->]].
    + rewrite !firstn_app; f_equal; replace (st_args_len s - length args) with 0 by lia; reflexivity.
    + rewrite !firstn_app; f_equal; rewrite skipn_firstn_comm, firstn_firstn; f_equal; lia.
Qed.

(** ** one filter call *)
Definition total (hist : list (list V * list V)) := length (concat (map fst hist)).

Definition values (hist : list (list V * list V)) (ir cl : list V) : Prop :=
  (forall j, j < length ir - 1 -> nth_error cl j = Some (overlap_add zero hist (total hist + j))) /\
  (forall t, total hist + (length ir - 1) <= t -> overlap_add zero hist t = zero).

Definition outputs (hist : list (list V * list V)) (from n : nat) := map (overlap_add zero hist) (seq from n).

Lemma inv_store_carry h sp s buf irp ir cl cl' :
  inv h sp s buf irp ir cl -> length cl' = length cl ->
  exists h', (match st_carryover s with Some c => store h c (OSamples cl') | None => Some h end) = Some h' /\
    inv h' sp s buf irp ir cl'.
Proof.
  intros I Hl; pose proof I as I0; destruct I as [Ist Iar Ilen Iir Iirl Iirn Iirpos Icl Ica Isp Iap Iip [If1 If2] Iow].
  destruct (st_carryover s) as [c|] eqn:Ec.
  - destruct Ica as (Lc & Nc & Dc & Al & Al2).
    assert (D1 : c <> sp) by (intros ->; congruence).
    assert (D2 : c <> st_args s) by (intros ->; congruence).
    destruct (store_ok h c (OSamples cl') _ Lc) as (h' & E & S' & L'); exists h'; split; auto.
    constructor; auto; try (rewrite L'; ne; fail).
    + rewrite Ec; repeat split; auto; try lia. rewrite L'; ne.
    + split; [lia|]; intros p Hp; rewrite L'; ne.
    + intros p Hp; rewrite L', Ec; destruct (Nat.eqb_spec p c) as [->|]; [auto|]; intros Hlv; apply Iow; auto.
  - exists h; split; auto.
    destruct Ica as [-> Ica]; destruct cl'; [exact I0|discriminate].
Qed.

Lemma convolve_values hist ir cl cl1 ir1 a out :
  values hist ir cl -> carry_relation (length ir - 1) (length ir1 - 1) cl cl1 ->
  length ir - 1 <= length cl -> length ir - 1 <= length cl1 -> length ir1 - 1 <= length cl1 -> 0 < length ir1 ->
  length out = length a ->
  exists out' cl2, sp_convolve V zero add mul a (length a) ir1 (length ir1) (length ir - 1) cl1 out = Some (out', cl2) /\
    length cl2 = length cl1 /\ length out' = length a /\
    (length ir <= length a + length ir1 ->
     out' = outputs (hist ++ [(a, ir1)]) (total hist) (length a) /\ values (hist ++ [(a, ir1)]) ir1 cl2).
Proof.
  intros [V1 V2] [C1 C2] Hcl Hcl1 Hcl2 Hpos Ho.
  destruct (convolve_spec V zero add mul a (length a) ir1 (length ir1) (length ir - 1) cl1 out)
    as (o & c & E & L1 & L2 & G); try lia.
  exists o, c; split; [exact E|]; split; [exact L2|]; split; [lia|]; intros Hfit.
  rewrite !firstn_all in G.
  assert (Htot : total (hist ++ [(a, ir1)]) = total hist + length a).
  { unfold total; rewrite map_app, concat_app, app_length; simpl; rewrite app_nil_r; reflexivity. }
  assert (Hall : forall k, k < length a + (length ir1 - 1) ->
     nth_error (o ++ c) k = Some (overlap_add zero (hist ++ [(a, ir1)]) (total hist + k))).
  { intros k Hk; destruct (G k) as (v & Ev & Hv); [lia|]; rewrite Hv.
    rewrite overlap_add_snoc; cbv zeta; fold (total hist).
    destruct (Nat.ltb_spec (total hist + k) (total hist)); [lia|].
    replace (total hist + k - total hist) with k by lia; do 2 f_equal.
    unfold prepared in Ev.
    assert (Hz : length ir - 1 <= k -> overlap_add zero hist (total hist + k) = zero) by (intros; apply V2; lia).
    revert Ev; bd; try lia.
    - rewrite C1, V1 by lia; congruence.
    - rewrite Hz by lia; congruence.
    - rewrite C1, V1 by lia; congruence.
    - rewrite Hz by lia; congruence.
    - rewrite Hz, C2 by lia; congruence. }
  split.
  - apply list_eq_tab; [lia|]; intros i Hi.
    rewrite <- Hall by lia; rewrite nth_error_app1 by lia; reflexivity.
  - split.
    + intros j Hj; specialize (Hall (length o + j)); rewrite nth_error_app2 in Hall by lia.
      replace (length o + j - length o) with j in Hall by lia.
      rewrite Hall, Htot by lia; do 2 f_equal; lia.
    + intros t Ht; rewrite Htot in Ht; rewrite overlap_add_snoc; cbv zeta; fold (total hist).
      destruct (Nat.ltb_spec t (total hist)); [lia|].
      rewrite conv_sample_beyond by lia; apply V2; lia.
Qed.

(** the samples of one call in terms of the tail that the previous call has left *)
Lemma carried_values (ir cl cl1 ir1 a out o c : list V) :
  carry_relation (length ir - 1) (length ir1 - 1) cl cl1 -> length ir - 1 <= length cl -> length ir1 - 1 <= length cl1 ->
  length o = length out -> length out = length a -> length c = length cl1 ->
  (forall k, k < length a + length cl1 -> exists v, prepared V zero (length a) (length ir - 1) cl1 k = Some v /\
     nth_error (o ++ c) k = Some (conv_sample V add mul v (firstn (length a) a) (firstn (length ir1) ir1) k)) ->
  o = map (segment_sum V zero add mul (firstn (length ir - 1) cl) a ir1) (seq 0 (length a)) /\
  firstn (length ir1 - 1) c = map (segment_sum V zero add mul (firstn (length ir - 1) cl) a ir1) (seq (length a) (length ir1 - 1)).
Proof.
  intros [C1 C2] Hcl Hcl1 L1 Lo L2 G; rewrite !firstn_all in G.
  assert (Hall : forall k, k < length a + (length ir1 - 1) ->
    nth_error (o ++ c) k = Some (segment_sum V zero add mul (firstn (length ir - 1) cl) a ir1 k)).
  { intros k Hk; destruct (G k) as (v & Ev & Hv); [lia|]; rewrite Hv; unfold segment_sum; do 2 f_equal.
    assert (Hn : nth k (firstn (length ir - 1) cl) zero = if k <? length ir - 1 then nth k cl zero else zero).
    { bd; [|apply nth_overflow; rewrite firstn_length; lia].
      rewrite <- (firstn_skipn (length ir - 1) cl) at 2; rewrite app_nth1; [reflexivity|rewrite firstn_length; lia]. }
    rewrite Hn; unfold prepared in Ev.
    assert (Hc1 : k < length ir - 1 -> nth_error cl1 k = Some (nth k cl zero)) by (intros; rewrite C1 by lia; apply nth_error_nth'; lia).
    revert Ev; bd; try lia; intros Ev.
    - rewrite Hc1 in Ev by lia; congruence.
    - congruence.
    - rewrite Hc1 in Ev by lia; congruence.
    - congruence.
    - rewrite C2 in Ev by lia; congruence. }
  split.
  - apply list_eq_tab; [lia|]; intros i Hi; rewrite Nat.add_0_l, <- (Hall i) by lia; rewrite nth_error_app1 by lia; reflexivity.
  - apply list_eq_tab; [rewrite firstn_length; lia|]; intros i Hi; rewrite nth_error_firstn by lia.
    specialize (Hall (length a + i)); rewrite nth_error_app2 in Hall by lia; replace (length a + i - length o) with i in Hall by lia.
    apply Hall; lia.
Qed.

Notation call := (call V).
Notation responds := (responds V ir_f).
Notation segment := (segment V ir_f).
Notation tails_fit := (tails_fit V).
Notation state_free := (state_free V).


Definition good (os : option nat) (h : heap) : Prop :=
  (os = None /\ h = h0) \/ exists sp s buf irp ir cl, os = Some sp /\ inv h sp s buf irp ir cl.

Lemma inv_carry_of h sp s buf irp ir cl : inv h sp s buf irp ir cl ->
  (match st_carryover s with Some c => load_samples V h c | None => Some [] end) = Some cl.
Proof.
  intros I; pose proof (inv_carry _ _ _ _ _ _ _ I) as Ica.
  destruct (st_carryover s) as [c|].
  - destruct Ica as (Lc & _); unfold load_samples; rewrite Lc; reflexivity.
  - destruct Ica as (-> & _); reflexivity.
Qed.

Lemma inv_carry_length h sp s buf irp ir cl : inv h sp s buf irp ir cl -> length ir - 1 <= length cl.
Proof.
  intros I; pose proof (inv_carry _ _ _ _ _ _ _ I) as Ica.
  destruct (st_carryover s) as [c|]; [tauto|]; destruct Ica as [-> ->]; simpl; lia.
Qed.

(** after a successful [state_set], the rest of the call *)
Lemma filter_tail h sp s buf irp ir cl clen a out :
  inv h sp s buf irp ir cl -> forall out' cl2,
  sp_convolve V zero add mul a (length a) ir (length ir) clen cl out = Some (out', cl2) -> length cl2 = length cl ->
  exists h', (s <- load_state V h sp ;;
    irp <- st_ir s ;;
    ir <- load_samples V h irp ;;
    carry <- (match st_carryover s with Some c => load_samples V h c | None => Some [] end) ;;
    '(out, carry) <- sp_convolve V zero add mul a (length a) ir (st_ir_len s) clen carry out ;;
    h <- (match st_carryover s with Some c => store h c (OSamples carry) | None => Some h end) ;;
    Some (Ok tt, out, Some sp, h)) = Some (@Ok unit tt, out', Some sp, h') /\ inv h' sp s buf irp ir cl2.
Proof.
  intros I out' cl2 E Hl.
  unfold load_state; rewrite (inv_state _ _ _ _ _ _ _ I); cbn [bind].
  rewrite (inv_ir _ _ _ _ _ _ _ I); cbn [bind].
  unfold load_samples at 1; rewrite (inv_ir_l _ _ _ _ _ _ _ I); cbn [bind].
  rewrite (inv_carry_of _ _ _ _ _ _ _ I); cbn [bind].
  rewrite (inv_ir_len _ _ _ _ _ _ _ I), E; cbn [bind].
  destruct (inv_store_carry _ _ _ _ _ _ _ cl2 I Hl) as (h' & E' & I'); rewrite E'; cbn [bind].
  exists h'; split; auto.
Qed.

Lemma filter_first f args ir a out :
  ir_f f args = Some ir -> 0 < length ir -> length out = length a ->
  exists h' sp s' buf' irp cl' out',
    convolution_filter a f args (length args) None out h0 = Some (Ok tt, out', Some sp, h') /\
    inv h' sp s' buf' irp ir cl' /\ st_ir_f s' = f /\ st_args_len s' = length args /\ firstn (length args) buf' = args /\
    out' = outputs [(a, ir)] 0 (length a) /\ values [(a, ir)] ir cl' /\
    firstn (length ir - 1) cl' = map (segment_sum V zero add mul [] a ir) (seq (length a) (length ir - 1)).
Proof.
  intros Hf Hpos Ho.
  destruct (state_set_new f args ir Hf Hpos) as (h1 & sp & s1 & buf1 & irp & cl1 & E1 & I1 & F1 & A1 & G1 & C1).
  unfold FilterModel.convolution_filter; cbn [bind]; rewrite E1; cbn [bind].
  pose proof (inv_carry_length _ _ _ _ _ _ _ I1) as Hc1.
  destruct (convolve_values [] [zero] [] cl1 ir a out) as (out' & cl2 & E2 & L2 & L3 & V2); auto; try (simpl; lia).
  { split; [simpl; lia|]; intros; reflexivity. }
  destruct (filter_tail h1 sp s1 buf1 irp ir cl1 0 a out I1 out' cl2 E2 L2) as (h' & E' & I').
  rewrite E'; exists h', sp, s1, buf1, irp, cl2, out'.
  destruct V2 as [V3 V4]; [simpl; lia|].
  splits; auto.
  pose proof (inv_carry_length _ _ _ _ _ _ _ I') as Hc2.
  apply list_eq_tab; [rewrite firstn_length; lia|]; intros i Hi; rewrite nth_error_firstn by lia.
  destruct V4 as [V4 _]; rewrite V4 by lia; unfold total; cbn [app map fst concat]; rewrite app_nil_r; cbn [ConvolveSpec.overlap_add].
  destruct (Nat.ltb_spec (length a + i) (length a)); [lia|]; unfold segment_sum; destruct (length a + i); reflexivity.
Qed.

Lemma filter_next h sp s buf irp ir cl f args ir1 a out :
  inv h sp s buf irp ir cl -> ir_f f args = Some ir1 -> 0 < length ir1 -> length out = length a ->
  exists h' s' buf' irp' ir' cl' out',
    convolution_filter a f args (length args) (Some sp) out h = Some (Ok tt, out', Some sp, h') /\
    inv h' sp s' buf' irp' ir' cl' /\ st_ir_f s' = st_ir_f s /\ st_args_len s' = st_args_len s /\
    firstn (length args) buf' = args /\ length out' = length a /\
    (ir' = ir1 \/ (st_ir_f s = f /\ st_args_len s = length args /\ firstn (length args) buf = args /\ ir' = ir)) /\
    (st_ir_f s = f /\ firstn (st_args_len s) buf = args /\ ir' = ir /\ firstn (st_args_len s) buf' = firstn (st_args_len s) buf \/
     ~ (st_ir_f s = f /\ firstn (st_args_len s) buf = args) /\ ir' = ir1 /\
       firstn (st_args_len s) buf' = overwritten (st_args_len s) args (firstn (st_args_len s) buf)) /\
    (forall tl, firstn (length ir - 1) cl = tl ->
      out' = map (segment_sum V zero add mul tl a ir') (seq 0 (length a)) /\
      firstn (length ir' - 1) cl' = map (segment_sum V zero add mul tl a ir') (seq (length a) (length ir' - 1))) /\
    (forall hist, values hist ir cl -> length ir <= length a + length ir' ->
      out' = outputs (hist ++ [(a, ir')]) (total hist) (length a) /\ values (hist ++ [(a, ir')]) ir' cl').
Proof.
  intros I Hf Hpos Ho.
  destruct (state_set_existing h sp s buf irp ir cl f args ir1 I Hf Hpos)
    as (h1 & s1 & buf1 & irp1 & ir' & cl1 & E1 & I1 & F1 & A1 & G1 & C1 & U1 & W1).
  unfold FilterModel.convolution_filter, load_state at 1; rewrite (inv_state _ _ _ _ _ _ _ I); cbn [bind].
  rewrite E1; cbn [bind].
  pose proof (inv_carry_length _ _ _ _ _ _ _ I) as Hc0; pose proof (inv_carry_length _ _ _ _ _ _ _ I1) as Hc1.
  pose proof (inv_ir_pos _ _ _ _ _ _ _ I1) as Hp1.
  rewrite (inv_carry_len _ _ _ _ _ _ _ I).
  assert (Hcl1 : length ir - 1 <= length cl1).
  { destruct (Nat.le_gt_cases (length ir - 1) (length cl1)) as [|Hlt]; auto.
    destruct C1 as [C1 _]; specialize (C1 (length cl1) Hlt).
    rewrite (proj2 (nth_error_None cl1 (length cl1))) in C1 by lia.
    symmetry in C1; apply nth_error_None in C1; lia. }
  destruct (convolve_spec V zero add mul a (length a) ir' (length ir') (length ir - 1) cl1 out)
    as (out' & cl2 & E2 & L1 & L2 & G2); try lia.
  destruct (filter_tail h1 sp s1 buf1 irp1 ir' cl1 (length ir - 1) a out I1 out' cl2 E2 L2) as (h' & E' & I').
  rewrite E'; exists h', s1, buf1, irp1, ir', cl2, out'.
  splits; auto; [lia| |].
  { intros tl <-. apply (carried_values ir cl cl1 ir' a out out' cl2); auto. }
  intros hist HV Hfit.
  destruct (convolve_values hist ir cl cl1 ir' a out HV C1) as (o & c & E3 & _ & _ & H3); auto.
  rewrite E2 in E3; injection E3 as <- <-; auto.
Qed.

(** ** memory ownership over whole runs *)
Lemma run_good : forall calls os h,
  good os h -> Forall responds calls ->
  exists outs os' h', run_calls calls os h = Some (outs, os', h') /\ good os' h' /\
    Forall (fun r => fst r = Ok tt) outs /\ map (fun r => length (snd r)) outs = map (fun c => length (c_in V c)) calls.
Proof.
  induction calls as [|c calls IH]; intros os h G R.
  - exists [], os, h; splits; auto.
  - inversion R as [|c' l [ir [Hf Hpos]] R']; subst.
    assert (Step : exists out os1 h1, convolution_filter (c_in V c) (c_f V c) (c_args V c) (length (c_args V c)) os
        (junk (length (c_in V c))) h = Some (Ok tt, out, os1, h1) /\ good os1 h1 /\ length out = length (c_in V c)).
    { destruct G as [[-> ->]|(sp & s & buf & irp & ir0 & cl & -> & I)].
      - destruct (filter_first (c_f V c) (c_args V c) ir (c_in V c) (junk (length (c_in V c))) Hf Hpos (junk_len _))
          as (h1 & sp & s1 & buf1 & irp1 & cl1 & out & E & I1 & _ & _ & _ & Ho & _).
        exists out, (Some sp), h1; splits; auto.
        + right; exists sp, s1, buf1, irp1, ir, cl1; auto.
        + rewrite Ho; unfold outputs; rewrite map_length, seq_length; auto.
      - destruct (filter_next h sp s buf irp ir0 cl (c_f V c) (c_args V c) ir (c_in V c) (junk (length (c_in V c))) I Hf Hpos (junk_len _))
          as (h1 & s1 & buf1 & irp1 & ir1 & cl1 & out & E & I1 & _ & _ & _ & Ho & _).
        exists out, (Some sp), h1; splits; auto.
        right; exists sp, s1, buf1, irp1, ir1, cl1; auto. }
    destruct Step as (out & os1 & h1 & E1 & G1 & L1).
    destruct (IH os1 h1 G1 R') as (outs & os2 & h2 & E2 & G2 & F2 & M2).
    cbn [FilterModel.run_calls]; rewrite E1; cbn [bind]; rewrite E2; cbn [bind].
    exists ((Ok tt, out) :: outs), os2, h2; splits; auto.
    simpl; rewrite M2, L1; reflexivity.
Qed.

Lemma free_good os h : good os h -> exists h', state_free os h = Some h' /\ forall p, load h' p = load h0 p.
Proof.
  intros [[-> ->]|(sp & s & buf & irp & ir & cl & -> & I)].
  - exists h0; split; auto.
  - pose proof I as I0; destruct I as [Ist Iar Ilen Iir Iirl Iirn Iirpos Icl Ica Isp Iap Iip [If1 If2] Iow].
    unfold FilterModel.state_free, load_state; rewrite Ist; cbn [bind]; rewrite Iir.
    assert (Dsa : st_args s <> sp) by (intros e; rewrite e in Iar; congruence).
    assert (Dsi : irp <> sp) by (intros e; rewrite e in Iirl; congruence).
    assert (Dai : irp <> st_args s) by (intros e; rewrite e in Iirl; congruence).
    destruct (free_ok h irp _ Iirl) as (h1 & E1 & S1 & L1); rewrite E1; cbn [bind].
    assert (Hc : exists h2, free h1 (st_carryover s) = Some h2 /\
      forall q, load h2 q = if (match st_carryover s with Some c => q =? c | None => false end) then None else load h1 q).
    { destruct (st_carryover s) as [c|].
      - destruct Ica as (Lc & Nc & Dc & _).
        assert (L1c : load h1 c = Some (OSamples cl)) by (rewrite L1; ne).
        destruct (free_ok h1 c _ L1c) as (h2 & E2 & S2 & L2); eauto.
      - exists h1; split; auto. }
    destruct Hc as (h2 & E2 & L2); rewrite E2; cbn [bind].
    assert (Hold : forall q, st_carryover s = Some q -> q <> sp /\ q <> st_args s /\ q <> irp /\ N0 <= q).
    { intros q Hq; rewrite Hq in Ica; destruct Ica as (Lc & Nc & Dc & _); repeat split; auto; try (intros ->; congruence). }
    assert (L2a : load h2 (st_args s) = Some (OBytes buf)).
    { rewrite L2, L1; destruct (st_carryover s) as [c|]; [destruct (Hold c eq_refl) as (? & ? & ? & ?)|]; ne. }
    assert (L2s : load h2 sp = Some (OState s)).
    { rewrite L2, L1; destruct (st_carryover s) as [c|]; [destruct (Hold c eq_refl) as (? & ? & ? & ?)|]; ne. }
    destruct (free_ok h2 _ _ L2a) as (h3 & E3 & S3 & L3); rewrite E3; cbn [bind].
    assert (L3s : load h3 sp = Some (OState s)) by (rewrite L3; ne).
    destruct (free_ok h3 _ _ L3s) as (h4 & E4 & S4 & L4); rewrite E4; cbn [bind].
    exists h4; split; auto; intros p; rewrite L4, L3, L2, L1.
    destruct (Nat.lt_ge_cases p N0) as [Hp|Hp].
    + rewrite <- If2 by auto.
      destruct (st_carryover s) as [c|]; [destruct (Hold c eq_refl) as (? & ? & ? & ?)|]; ne.
    + rewrite (load_none_ge h0 p) by auto.
      destruct (load h p) eqn:El.
      * destruct (Iow p Hp) as [e|[e|[e|e]]]; [congruence| | | |]; destruct (st_carryover s) as [c|]; ne.
      * destruct (st_carryover s) as [c|]; ne.
Qed.

(** ** values over whole runs with one response function and one argument size *)


Lemma overlap_add_prefix hist seg t : t < total hist -> overlap_add zero (hist ++ [seg]) t = overlap_add zero hist t.
Proof.
  destruct seg as [a b]; intros H; rewrite overlap_add_snoc; cbv zeta; fold (total hist); bd; auto; lia.
Qed.

Lemma overlap_add_prefixes rest : forall hist t, t < total hist -> overlap_add zero (hist ++ rest) t = overlap_add zero hist t.
Proof.
  induction rest as [|seg rest IH]; intros hist t H.
  - rewrite app_nil_r; auto.
  - replace (hist ++ seg :: rest) with ((hist ++ [seg]) ++ rest) by (rewrite <- app_assoc; reflexivity).
    rewrite IH; [apply overlap_add_prefix; auto|].
    unfold total in *; rewrite map_app, concat_app, app_length; lia.
Qed.

Lemma total_app h1 h2 : total (h1 ++ h2) = total h1 + total h2.
Proof. unfold total; rewrite map_app, concat_app, app_length; reflexivity. Qed.

Lemma outputs_plus hist from n m : outputs hist from (n + m) = outputs hist from n ++ outputs hist (from + n) m.
Proof. unfold outputs; rewrite seq_app, map_app; reflexivity. Qed.

Lemma run_values : forall calls hist h sp s buf irp ir cl f n,
  inv h sp s buf irp ir cl -> values hist ir cl ->
  st_ir_f s = f -> st_args_len s = n -> ir_f f (firstn n buf) = Some ir ->
  Forall (fun c => c_f V c = f /\ length (c_args V c) = n) calls -> Forall responds calls ->
  tails_fit (length ir) (map segment calls) ->
  exists outs os' h', run_calls calls (Some sp) h = Some (outs, os', h') /\
    Forall (fun r => fst r = Ok tt) outs /\
    concat (map snd outs) = outputs (hist ++ map segment calls) (total hist) (total (map segment calls)).
Proof.
  induction calls as [|c calls IH]; intros hist h sp s buf irp ir cl f n I HV Hsf Hsn Hir HF HR HT.
  - exists [], (Some sp), h; splits; auto.
  - inversion HF as [|c' l [Hcf Hcn] HF']; subst c' l.
    inversion HR as [|c' l [ir1 [Hf Hpos]] HR']; subst c' l.
    simpl in HT; unfold FilterSpec.segment in HT at 1; rewrite Hf in HT; destruct HT as [HT1 HT2].
    destruct (filter_next h sp s buf irp ir cl (c_f V c) (c_args V c) ir1 (c_in V c) (junk (length (c_in V c))) I Hf Hpos (junk_len _))
      as (h1 & s1 & buf1 & irp1 & ir' & cl1 & out & E & I1 & F1 & A1 & G1 & Lo & U & _ & _ & HN).
    assert (Hir' : ir' = ir1).
    { destruct U as [|(U1 & U2 & U3 & U4)]; auto; subst ir'.
      rewrite Hcf, <- U3, Hcn, Hir in Hf; congruence. }
    subst ir'.
    destruct (HN hist HV HT1) as [Ho HV1].
    destruct (IH (hist ++ [(c_in V c, ir1)]) h1 sp s1 buf1 irp1 ir1 cl1 f n) as (outs & os2 & h2 & E2 & F2 & C2); auto; try congruence.
    cbn [FilterModel.run_calls]; rewrite E; cbn [bind]; rewrite E2; cbn [bind].
    exists ((Ok tt, out) :: outs), os2, h2; splits; auto.
    cbn [map concat snd]; rewrite C2, Ho.
    assert (Es : segment c = (c_in V c, ir1)) by (unfold FilterSpec.segment; rewrite Hf; reflexivity).
    rewrite Es.
    replace (hist ++ (c_in V c, ir1) :: map segment calls) with ((hist ++ [(c_in V c, ir1)]) ++ map segment calls)
      by (rewrite <- app_assoc; reflexivity).
    set (hh := hist ++ [(c_in V c, ir1)]).
    assert (Ht : total ((c_in V c, ir1) :: map segment calls) = length (c_in V c) + total (map segment calls)).
    { unfold total; simpl; rewrite app_length; reflexivity. }
    assert (Hh : total hh = total hist + length (c_in V c)).
    { unfold hh; rewrite total_app; unfold total at 2; simpl; rewrite app_nil_r; reflexivity. }
    rewrite Ht, outputs_plus, <- Hh; f_equal.
    unfold outputs; apply map_ext_in; intros t Hin; apply in_seq in Hin.
    symmetry; apply overlap_add_prefixes; lia.
Qed.

Lemma run_values_start calls f n :
  Forall (fun c => c_f V c = f /\ length (c_args V c) = n) calls -> Forall responds calls ->
  tails_fit 0 (map segment calls) ->
  exists outs os' h', run_calls calls None h0 = Some (outs, os', h') /\
    Forall (fun r => fst r = Ok tt) outs /\
    concat (map snd outs) = outputs (map segment calls) 0 (total (map segment calls)).
Proof.
  destruct calls as [|c calls]; intros HF HR HT.
  - exists [], None, h0; splits; auto.
  - inversion HF as [|c' l [Hcf Hcn] HF']; subst c' l.
    inversion HR as [|c' l [ir1 [Hf Hpos]] HR']; subst c' l.
    simpl in HT; unfold FilterSpec.segment in HT at 1; rewrite Hf in HT; destruct HT as [HT1 HT2].
    destruct (filter_first (c_f V c) (c_args V c) ir1 (c_in V c) (junk (length (c_in V c))) Hf Hpos (junk_len _))
      as (h1 & sp & s1 & buf1 & irp1 & cl1 & out & E & I1 & F1 & A1 & G1 & Ho & HV & _).
    destruct (run_values calls [(c_in V c, ir1)] h1 sp s1 buf1 irp1 ir1 cl1 f n) as (outs & os2 & h2 & E2 & F2 & C2); auto; try congruence.
    cbn [FilterModel.run_calls]; rewrite E; cbn [bind]; rewrite E2; cbn [bind].
    exists ((Ok tt, out) :: outs), os2, h2; splits; auto.
    cbn [map concat snd]; rewrite C2, Ho.
    assert (Es : segment c = (c_in V c, ir1)) by (unfold FilterSpec.segment; rewrite Hf; reflexivity).
    rewrite Es; change ((c_in V c, ir1) :: map segment calls) with ([(c_in V c, ir1)] ++ map segment calls).
    assert (Hh : total [(c_in V c, ir1)] = length (c_in V c)).
    { unfold total; simpl; rewrite app_nil_r; reflexivity. }
    rewrite total_app, outputs_plus, Hh; f_equal.
    unfold outputs; apply map_ext_in; intros t Hin; apply in_seq in Hin.
    symmetry; apply overlap_add_prefixes; lia.
Qed.

(** ** values over all runs *)
Notation remembered := (remembered V ir_f).
Notation filter_stream := (filter_stream V zero add mul).
Lemma run_remembered : forall calls h sp s buf irp ir cl,
  inv h sp s buf irp ir cl -> Forall responds calls ->
  exists outs os' h', run_calls calls (Some sp) h = Some (outs, os', h') /\ Forall (fun r => fst r = Ok tt) outs /\
    concat (map snd outs) =
      filter_stream (firstn (length ir - 1) cl) (combine (map (c_in V) calls) (remembered (st_ir_f s) (firstn (st_args_len s) buf) ir calls)).
Proof.
  induction calls as [|c calls IH]; intros h sp s buf irp ir cl I HR.
  - exists [], (Some sp), h; splits; auto.
  - inversion HR as [|c' l [ir1 [Hf Hpos]] HR']; subst c' l.
    destruct (filter_next h sp s buf irp ir cl (c_f V c) (c_args V c) ir1 (c_in V c) (junk (length (c_in V c))) I Hf Hpos (junk_len _))
      as (h1 & s1 & buf1 & irp1 & ir' & cl1 & out & E & I1 & F1 & A1 & G1 & Lo & _ & W & HN & _).
    destruct (HN _ eq_refl) as [Ho Ht].
    destruct (IH h1 sp s1 buf1 irp1 ir' cl1 I1 HR') as (outs & os2 & h2 & E2 & F2 & C2).
    cbn [FilterModel.run_calls]; rewrite E; cbn [bind]; rewrite E2; cbn [bind].
    exists ((Ok tt, out) :: outs), os2, h2; splits; auto.
    cbn [map concat snd FilterSpec.remembered]; rewrite C2, Ht, F1, A1.
    pose proof (inv_len _ _ _ _ _ _ _ I) as Hlen.
    assert (Hfl : length (firstn (st_args_len s) buf) = st_args_len s) by (rewrite firstn_length; lia).
    destruct W as [(W1 & W2 & -> & W3)|(W1 & -> & W3)].
    + rewrite W1, Nat.eqb_refl, W2; destruct (list_eq_dec Z.eq_dec (c_args V c) (c_args V c)) as [_|n]; [|contradiction].
      cbn [andb combine FilterSpec.filter_stream]; rewrite Ho, W3, W2; reflexivity.
    + assert (Hd : (c_f V c =? st_ir_f s) && (if list_eq_dec Z.eq_dec (c_args V c) (firstn (st_args_len s) buf) then true else false) = false).
      { destruct (Nat.eqb_spec (c_f V c) (st_ir_f s)); [|reflexivity]; destruct (list_eq_dec _ _ _); [|reflexivity]; exfalso; auto. }
      rewrite Hd; cbn [combine FilterSpec.filter_stream]; assert (Hr : response V ir_f c = ir1) by (unfold response; rewrite Hf; reflexivity); rewrite Hr, Ho, W3; unfold overwritten; rewrite Hfl; reflexivity.
Qed.
Lemma run_used calls : Forall responds calls ->
  exists outs os' h', run_calls calls None h0 = Some (outs, os', h') /\ Forall (fun r => fst r = Ok tt) outs /\
    concat (map snd outs) = filter_stream [] (combine (map (c_in V) calls) (used_responses V ir_f calls)).
Proof.
  destruct calls as [|c calls]; intros HR.
  - exists [], None, h0; splits; auto.
  - inversion HR as [|c' l [ir1 [Hf Hpos]] HR']; subst c' l.
    destruct (filter_first (c_f V c) (c_args V c) ir1 (c_in V c) (junk (length (c_in V c))) Hf Hpos (junk_len _))
      as (h1 & sp & s1 & buf1 & irp1 & cl1 & out & E & I1 & F1 & A1 & G1 & Ho & _ & Ht).
    destruct (run_remembered calls h1 sp s1 buf1 irp1 ir1 cl1 I1 HR') as (outs & os2 & h2 & E2 & F2 & C2).
    cbn [FilterModel.run_calls]; rewrite E; cbn [bind]; rewrite E2; cbn [bind].
    exists ((Ok tt, out) :: outs), os2, h2; splits; auto.
    cbn [map concat snd used_responses combine FilterSpec.filter_stream]; rewrite C2, Ht, F1, A1, G1; unfold response; rewrite Hf; f_equal.
    rewrite Ho; unfold outputs; apply map_ext_in; intros t Hin; apply in_seq in Hin; cbn [ConvolveSpec.overlap_add].
    destruct (Nat.ltb_spec t (length (c_in V c))); [|lia]; unfold segment_sum; destruct t; reflexivity.
Qed.
End Proofs.
