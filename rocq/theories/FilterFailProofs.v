(** Failing calls of the convolution filter *)
From Verif Require Import Base ConvolveModel ConvolveSpec ConvolveProofs FilterModel FilterSpec FilterProofs.

Section First.
Variable V : Type.
Variables (zero : V) (add mul : V -> V -> V).
Variable ir_f : nat -> list Z -> option (list V).
Variable mem_ok : nat -> bool.
Variable junk : nat -> list V.
Variable junkb : nat -> list Z.
Hypothesis junkb_len : forall n, length (junkb n) = n.
Notation heap := (heap V).
Notation load := (load V).
Notation size := (size V).

Lemma malloc_fails (h : heap) o : mem_ok (attempts V h) = false ->
  exists h', malloc V mem_ok h o = (None, h') /\ size h' = size h /\ attempts V h' = S (attempts V h) /\ forall q, load h' q = load h q.
Proof. intros H; unfold malloc; rewrite H; eexists; split; [reflexivity|]; auto. Qed.
Lemma malloc_works (h : heap) o : mem_ok (attempts V h) = true ->
  exists h', malloc V mem_ok h o = (Some (size h), h') /\ size h' = S (size h) /\ attempts V h' = S (attempts V h) /\
    forall q, load h' q = if q =? size h then Some o else load h q.
Proof.
  intros H; unfold malloc; rewrite H; eexists; split; [reflexivity|].
  destruct (malloc_ok V zero add mul ir_f (repeat zero) junkb (fun n => repeat_length zero n) junkb_len h o) as (h' & E & S' & L); unfold malloc in E; injection E as <-; auto.
Qed.
Lemma set_cell_attempts (h h' : heap) p o : set_cell V h p o = Some h' -> attempts V h' = attempts V h.
Proof. unfold set_cell; intros E; apply bind_some in E; destruct E as [c [_ E]]; injection E as <-; reflexivity. Qed.
Lemma store_attempts (h h' : heap) p o : store V h p o = Some h' -> attempts V h' = attempts V h.
Proof. unfold store; intros E; apply bind_some in E; destruct E as [c [_ E]]; eapply set_cell_attempts; eauto. Qed.

Ltac ne := repeat match goal with
  | H : context [?a =? ?b] |- _ => destruct (Nat.eqb_spec a b) in H
  | |- context [?a =? ?b] => destruct (Nat.eqb_spec a b)
  end; try congruence; try lia; auto.

Lemma first_call h0 f args a out :
  (forall ir, ir_f f args = Some ir -> 0 < length ir) -> length out = length a ->
  exists r out' os h', convolution_filter V zero add mul ir_f mem_ok junk junkb a f args (length args) None out h0 = Some (r, out', os, h') /\
  match objects_lost V mem_ok (attempts V h0) (ir_f f args) with
  | None => r = Ok tt
  | Some k => r = Fail /\ out' = out /\ os = None /\ lost_objects V h0 h' k
  end.
Proof.
  intros Hpos Ho; unfold objects_lost, convolution_filter, state_set; cbn [bind].
  set (t0 := attempts V h0).
  match goal with |- context [malloc V mem_ok h0 ?o] => set (o0 := o) end.
  destruct (mem_ok t0) eqn:M0.
  2: { destruct (malloc_fails h0 o0 M0) as (h1 & E1 & S1 & A1 & L1); rewrite E1; cbn [bind negb].
       do 4 eexists; split; [reflexivity|]; splits; auto. exists []; splits; auto. constructor. intros q []. }
  destruct (malloc_works h0 o0 M0) as (h1 & E1 & S1 & A1 & L1); rewrite E1; cbn [negb].
  fold t0 in A1.
  destruct (mem_ok (t0 + 1)) eqn:M1.
  2: { rewrite Nat.add_1_r, <- A1 in M1.
       destruct (malloc_fails h1 (OBytes V (junkb (length args))) M1) as (h2 & E2 & S2 & A2 & L2); rewrite E2; cbn [bind negb].
       do 4 eexists; split; [reflexivity|]; splits; auto. exists [size h0]; splits; auto.
       - constructor; [intros []|constructor].
       - intros q [<-|[]]; split; [apply load_none_ge; lia|]. rewrite L2, L1, Nat.eqb_refl; discriminate.
       - intros q Hq; rewrite L2, L1; destruct (Nat.eqb_spec q (size h0)); auto. exfalso; apply Hq; left; auto. }
  rewrite Nat.add_1_r, <- A1 in M1.
  destruct (malloc_works h1 (OBytes V (junkb (length args))) M1) as (h2 & E2 & S2 & A2 & L2); rewrite E2; cbn [negb].
  pose (s := {| st_carryover := None; st_carryover_len := 0; st_carryover_alloc_len := 0;
       st_ir := None; st_ir_f := f; st_args := size h1; st_args_len := length args; st_ir_len := 0 |}).
  assert (L2s : load h2 (size h0) = Some o0) by (rewrite L2, L1; ne).
  destruct (store_ok V h2 (size h0) (OState V s) _ L2s) as (h3 & E3 & S3 & L3).
  pose proof (store_attempts _ _ _ _ E3) as A3; unfold s in E3; rewrite E3; cbn [bind].
  unfold state_update.
  assert (K : load_state V h3 (size h0) = Some s) by (unfold load_state; rewrite L3, Nat.eqb_refl; reflexivity).
  rewrite K; cbn [bind]. change (st_args s) with (size h1).
  assert (L3a : load h3 (size h1) = Some (OBytes V (junkb (length args)))) by (rewrite L3, L2; ne).
  unfold load_bytes at 1; rewrite L3a; cbn [bind].
  destruct (blit_some args 0 (junkb (length args)) 0 (length args)) as [buf' Eb]; try (rewrite ?junkb_len; lia); rewrite Eb; cbn [bind].
  destruct (store_ok V h3 (size h1) (OBytes V buf') _ L3a) as (h4 & E4 & S4 & L4).
  pose proof (store_attempts _ _ _ _ E4) as A4; rewrite E4; cbn [bind].
  (* memreg_free *)
  assert (FA : forall h5, load h5 (size h0) <> None -> load h5 (size h1) <> None -> exists h6, free_all V h5 [size h1; size h0] = Some h6 /\
    forall q, load h6 q = if q =? size h1 then None else if q =? size h0 then None else load h5 q).
  { intros h5 H1 H2; destruct (load h5 (size h1)) as [x1|] eqn:X1; [|contradiction]; destruct (load h5 (size h0)) as [x0|] eqn:X0; [|contradiction].
    cbn [free_all]; destruct (free_ok V h5 _ _ X1) as (h6 & F1 & _ & Y1); rewrite F1; cbn [bind].
    assert (X6 : load h6 (size h0) = Some x0) by (rewrite Y1; ne).
    destruct (free_ok V h6 _ _ X6) as (h7 & F2 & _ & Y2); rewrite F2; cbn [bind]. exists h7; split; [reflexivity|]; intros q; rewrite Y2, Y1; ne. }
  assert (L4' : forall q, load h4 q = if q =? size h1 then Some (OBytes V buf') else if q =? size h0 then Some (OState V s) else load h0 q).
  { intros q; rewrite L4, L3, L2, L1; ne. }
  destruct (ir_f f args) as [ir|] eqn:Hir.
  2: { destruct (FA h4) as (h5 & F & L5); [rewrite L4'; ne|rewrite L4'; ne|]; rewrite F; cbn [bind].
       do 4 eexists; split; [reflexivity|]; splits; auto. exists []; splits; auto; [constructor|intros q []|].
       intros q _; rewrite L5, L4'; ne; subst; symmetry; apply load_none_ge; lia. }
  specialize (Hpos ir eq_refl).
  assert (A4' : attempts V h4 = t0 + 2) by lia.
  destruct (mem_ok (t0 + 2)) eqn:M2.
  2: { rewrite <- A4' in M2. destruct (malloc_fails h4 (OSamples V ir) M2) as (h5 & E5 & S5 & A5 & L5); rewrite E5; cbn [bind negb].
       destruct (FA h5) as (h6 & F & L6); [rewrite L5, L4'; ne|rewrite L5, L4'; ne|]; rewrite F; cbn [bind].
       do 4 eexists; split; [reflexivity|]; splits; auto. exists []; splits; auto; [constructor|intros q []|].
       intros q _; rewrite L6, L5, L4'; ne; subst; symmetry; apply load_none_ge; lia. }
  rewrite <- A4' in M2. destruct (malloc_works h4 (OSamples V ir) M2) as (h5 & E5 & S5 & A5 & L5); rewrite E5; cbn [bind negb].
  unfold extend_carryover; cbn [st_carryover s].
  assert (Hir1 : size h4 = S (S (size h0))) by lia.
  assert (E1' : (1 <? length ir) = (0 <? length ir - 1)) by (bd; lia). rewrite E1'.
  assert (Finish : forall h6 c al, size h5 <= size h6 ->
    (forall q, load h6 q = match c with Some p => if q =? p then Some (OSamples V (repeat zero (length ir - 1))) else load h5 q | None => load h5 q end) ->
    (c = None -> length ir = 1) -> (c <> None -> c = Some (size h5)) ->
    exists r out' os h', (' (r, out_state, h) <-
       (h <- store V h6 (size h0) (OState V {| st_carryover := c; st_carryover_len := length ir - 1; st_carryover_alloc_len := al; st_ir := Some (size h4); st_ir_f := f;
          st_args := size h1; st_args_len := length args; st_ir_len := length ir |});; Some (@Ok unit tt, Some (size h0), h)) ;;
       match r with
       | Ok _ => sp <- out_state;; s0 <- load_state V h sp;; irp <- st_ir s0;; ir0 <- load_samples V h irp;;
           carry <- match st_carryover s0 with Some c0 => load_samples V h c0 | None => Some [] end;;
           ' (out0, carry0) <- sp_convolve V zero add mul a (length a) ir0 (st_ir_len s0) 0 carry out;;
           h1 <- match st_carryover s0 with Some c0 => store V h c0 (OSamples V carry0) | None => Some h end;; Some (@Ok unit tt, out0, out_state, h1)
       | Fail => Some (Fail, out, out_state, h)
       end) = Some (r, out', os, h') /\ r = Ok tt).
  { intros h6 c al S6 L6 Hc1 Hc2.
    assert (Hcne : c <> Some (size h0) /\ c <> Some (size h4)) by (destruct c as [c|]; [assert (Some c = Some (size h5)) by (apply Hc2; discriminate); split; intros e; assert (size h5 = size h0 \/ size h5 = size h4) by (left; congruence) || (assert (size h5 = size h4) by congruence; lia); lia|split; discriminate]).
    assert (L6s : load h6 (size h0) = Some (OState V s)).
    { rewrite L6. replace (load h5 (size h0)) with (Some (OState V s)) by (rewrite L5, L4'; ne). destruct c as [c|]; auto. destruct (Nat.eqb_spec (size h0) c); auto; subst; destruct Hcne; congruence. }
    match goal with |- context [store V h6 (size h0) ?x] => destruct (store_ok V h6 (size h0) x _ L6s) as (h7 & E7 & S7 & L7) end.
    rewrite E7; cbn [bind]. unfold load_state at 1; rewrite L7, Nat.eqb_refl; cbn [bind st_ir st_carryover st_ir_len].
    assert (L7i : load h7 (size h4) = Some (OSamples V ir)).
    { rewrite L7. replace (size h4 =? size h0) with false by (symmetry; apply Nat.eqb_neq; lia). rewrite L6.
      replace (load h5 (size h4)) with (Some (OSamples V ir)) by (rewrite L5, Nat.eqb_refl; reflexivity). destruct c as [c|]; auto. destruct (Nat.eqb_spec (size h4) c); auto; subst; destruct Hcne; congruence. }
    unfold load_samples at 1; rewrite L7i; cbn [bind].
    destruct c as [c|].
    - assert (Ec : c = size h5) by (assert (Some c = Some (size h5)) by (apply Hc2; discriminate); congruence).
      assert (L7c : load h7 c = Some (OSamples V (repeat zero (length ir - 1)))).
      { rewrite L7. replace (c =? size h0) with false by (symmetry; apply Nat.eqb_neq; lia). rewrite L6, Nat.eqb_refl; reflexivity. }
      unfold load_samples at 1; rewrite L7c; cbn [bind].
      destruct (convolve_spec V zero add mul a (length a) ir (length ir) 0 (repeat zero (length ir - 1)) out) as (o & cc & Ec2 & _ & Lc & _); rewrite ?repeat_length; try lia.
      rewrite Ec2; cbn [bind]. destruct (store_ok V h7 c (OSamples V cc) _ L7c) as (h8 & E8 & _); rewrite E8; cbn [bind]. do 4 eexists; split; reflexivity.
    - specialize (Hc1 eq_refl). cbn [bind].
      destruct (convolve_spec V zero add mul a (length a) ir (length ir) 0 [] out) as (o & cc & Ec2 & _ & Lc & _); simpl; try lia.
      rewrite Ec2; cbn [bind]. do 4 eexists; split; reflexivity. }
  destruct (Nat.ltb_spec 0 (length ir - 1)) as [Hl|Hl].
  - cbn [andb]. assert (A5' : attempts V h5 = t0 + 3) by lia.
    destruct (mem_ok (t0 + 3)) eqn:M3.
    2: { rewrite <- A5' in M3. destruct (malloc_fails h5 (OSamples V (repeat zero (length ir - 1))) M3) as (h6 & E6 & S6 & A6 & L6); rewrite E6; cbn [bind negb].
         destruct (FA h6) as (h7 & F & L7); [rewrite L6, L5, L4'; ne|rewrite L6, L5, L4'; ne|]; rewrite F; cbn [bind].
         do 4 eexists; split; [reflexivity|]; splits; auto. exists [size h4]; splits; auto.
         - constructor; [intros []|constructor].
         - intros q [<-|[]]; split; [apply load_none_ge; lia|]. rewrite L7, L6, L5, Nat.eqb_refl; ne.
         - intros q Hq; assert (q <> size h4) by (intros ->; apply Hq; left; auto). rewrite L7, L6, L5, L4'; ne; subst; symmetry; apply load_none_ge; lia. }
    rewrite <- A5' in M3. destruct (malloc_works h5 (OSamples V (repeat zero (length ir - 1))) M3) as (h6 & E6 & S6 & A6 & L6); rewrite E6; cbn [bind negb].
    apply (Finish h6 (Some (size h5)) (length ir - 1)); auto; [lia|discriminate].
  - cbn [bind andb]. apply (Finish h5 None (length ir - 1)); auto; [lia|contradiction].
Qed.
End First.

Section Change.
Variable V : Type.
Variables (zero : V) (add mul : V -> V -> V).
Variable ir_f : nat -> list Z -> option (list V).
Variable junk : nat -> list V.
Variable junkb : nat -> list Z.
Hypothesis junk_len : forall n, length (junk n) = n.
Hypothesis junkb_len : forall n, length (junkb n) = n.
Notation mem_ok := (fun _ : nat => true).
Variable h0 : heap V.
Notation load := (load V).
Notation size := (size V).
Notation inv := (inv V h0).
Notation run_calls := (run_calls V zero add mul ir_f mem_ok junk junkb).
Notation convolution_filter := (convolution_filter V zero add mul ir_f mem_ok junk junkb).
Notation state_set := (state_set V zero ir_f mem_ok junk junkb).
Ltac ne := repeat match goal with
  | H : context [?a =? ?b] |- _ => destruct (Nat.eqb_spec a b) in H
  | |- context [?a =? ?b] => destruct (Nat.eqb_spec a b)
  end; try congruence; try lia; auto.

(** the state after runs *)
Lemma run_inv : forall calls (last : call V) h sp s buf irp ir cl,
  inv h sp s buf irp ir cl -> firstn (length (c_args V last)) buf = c_args V last -> Forall (responds V ir_f) calls ->
  exists outs h' s' buf' irp' ir' cl', run_calls calls (Some sp) h = Some (outs, Some sp, h') /\ Forall (fun r => fst r = Ok tt) outs /\
    inv h' sp s' buf' irp' ir' cl' /\ st_ir_f s' = st_ir_f s /\ st_args_len s' = st_args_len s /\
    firstn (length (c_args V (List.last calls last))) buf' = c_args V (List.last calls last).
Proof.
  induction calls as [|c calls IH]; intros last h sp s buf irp ir cl I Hl HR.
  - exists [], h, s, buf, irp, ir, cl; splits; auto.
  - inversion HR as [|c' l [ir1 [Hf Hpos]] HR']; subst c' l.
    destruct (filter_next V zero add mul ir_f junk junkb junk_len junkb_len h0 h sp s buf irp ir cl (c_f V c) (c_args V c) ir1 (c_in V c) (junk (length (c_in V c))) I Hf Hpos (junk_len _))
      as (h1 & s1 & buf1 & irp1 & ir' & cl1 & out & E & I1 & F1 & A1 & G1 & _).
    destruct (IH c h1 sp s1 buf1 irp1 ir' cl1 I1 G1 HR') as (outs & h2 & s2 & buf2 & irp2 & ir2 & cl2 & E2 & F2 & I2 & K1 & K2 & K3).
    cbn [FilterModel.run_calls]; rewrite E; cbn [bind]; rewrite E2; cbn [bind].
    exists ((Ok tt, out) :: outs), h2, s2, buf2, irp2, ir2, cl2; splits; auto; try congruence.
    replace (List.last (c :: calls) last) with (List.last calls c) by (clear; destruct calls as [|d l]; [reflexivity|]; cbn [List.last]; revert d; induction l as [|e l IHl]; intros d; [reflexivity|]; apply IHl).
    exact K3.
Qed.

(** a state whose response has been freed *)
Definition broken (h : heap V) (sp : nat) : Prop :=
  exists s buf irp, load h sp = Some (OState V s) /\ load h (st_args s) = Some (OBytes V buf) /\ st_args_len s <= length buf /\ st_ir s = Some irp /\ load h irp = None /\ irp < size h.

Lemma broken_free h sp : broken h sp -> state_free V (Some sp) h = None.
Proof.
  intros (s & buf & irp & H1 & H2 & H3 & H4 & H5 & H6); unfold state_free, load_state; rewrite H1; cbn [bind]; rewrite H4; unfold free; rewrite H5; reflexivity.
Qed.
Lemma broken_call h sp a f args out : broken h sp -> convolution_filter a f args (length args) (Some sp) out h = None.
Proof.
  intros (s & buf & irp & H1 & H2 & H3 & H4 & H5 & H6).
  unfold FilterModel.convolution_filter; unfold load_state at 1; rewrite H1; cbn [bind].
  unfold FilterModel.state_set; unfold load_state at 1; rewrite H1; cbn [bind]; unfold load_bytes at 1; rewrite H2; cbn [bind].
  assert (Esame : exists same, (if (st_ir_f s =? f) && (length args =? st_args_len s) then bytes_equal buf args (length args) else Some false) = Some same).
  { destruct (st_ir_f s =? f); [|exists false; reflexivity]. destruct (Nat.eqb_spec (length args) (st_args_len s)); [|exists false; reflexivity].
    destruct (bytes_equal_ok V zero add mul ir_f junk junkb junk_len junkb_len h0 buf args) as (r & Er & _); [lia|]; exists r; exact Er. }
  destruct Esame as (same & Es); rewrite Es; cbn [bind]; destruct same; cbn [bind].
  - unfold load_state; rewrite H1; cbn [bind]; rewrite H4; cbn [bind]; unfold load_samples at 1; rewrite H5; reflexivity.
  - assert (Dsa : st_args s <> sp) by (intros e; rewrite e in H2; congruence).
    assert (Dsi : irp <> sp) by (intros e; rewrite e in H5; congruence).
    assert (Dai : irp <> st_args s) by (intros e; rewrite e in H5; congruence).
    destruct (Nat.ltb_spec (st_args_len s) (length args)) as [Hg|Hg].
    + destruct (malloc_works V zero add mul ir_f mem_ok junkb junkb_len h (OBytes V (firstn (length args) buf ++ junkb (length args - length buf))) eq_refl) as (h1 & E1 & S1 & _ & L1).
      rewrite E1; cbn [bind]. pose proof (load_lt V _ _ _ H1) as B1; pose proof (load_lt V _ _ _ H2) as B2.
      assert (L1a : load h1 (st_args s) = Some (OBytes V buf)) by (rewrite L1; ne).
      destruct (free_ok V h1 _ _ L1a) as (h2 & E2 & S2 & L2); rewrite E2; cbn [bind].
      assert (L2s : load h2 sp = Some (OState V s)) by (rewrite L2, L1; ne).
      match goal with |- context [store V h2 sp ?o] => destruct (store_ok V h2 sp o _ L2s) as (h3 & E3 & S3 & L3) end; rewrite E3; cbn [bind].
      rewrite H4; unfold free. replace (load h3 irp) with (@None (obj V)); [reflexivity|]. rewrite L3, L2, L1; ne.
    + cbn [bind]; rewrite H4; unfold free; rewrite H5; reflexivity.
Qed.

Lemma failed_change h sp s buf irp ir cl f args a out :
  inv h sp s buf irp ir cl -> ir_f f args = None -> ~ (st_ir_f s = f /\ firstn (st_args_len s) buf = args) ->
  exists h', convolution_filter a f args (length args) (Some sp) out h = Some (Fail, out, Some sp, h') /\ broken h' sp.
Proof.
  intros I Hf Hnot.
  destruct I as [Ist Iar Ilen Iir Iirl Iirn Iirpos Icl Ica Isp Iap Iip [If1 If2] Iow].
  unfold FilterModel.convolution_filter; unfold load_state at 1; rewrite Ist; cbn [bind].
  unfold FilterModel.state_set; unfold load_state at 1; rewrite Ist; cbn [bind]; unfold load_bytes at 1; rewrite Iar; cbn [bind].
  assert (Es : (if (st_ir_f s =? f) && (length args =? st_args_len s) then bytes_equal buf args (length args) else Some false) = Some false).
  { destruct (Nat.eqb_spec (st_ir_f s) f); [|reflexivity]. destruct (Nat.eqb_spec (length args) (st_args_len s)) as [el|]; [|reflexivity].
    cbn [andb]; destruct (bytes_equal_ok V zero add mul ir_f junk junkb junk_len junkb_len h0 buf args) as (r & Er & Hr); [lia|]; rewrite Er; destruct r; [|reflexivity]. exfalso; apply Hnot; split; auto. rewrite <- el. apply Hr; reflexivity. }
  rewrite Es; cbn [bind].
  assert (Dsa : st_args s <> sp) by (intros e; rewrite e in Iar; congruence).
  assert (Dsi : irp <> sp) by (intros e; rewrite e in Iirl; congruence).
  assert (Dai : irp <> st_args s) by (intros e; rewrite e in Iirl; congruence).
  pose proof (load_lt V _ _ _ Ist) as B1; pose proof (load_lt V _ _ _ Iar) as B2; pose proof (load_lt V _ _ _ Iirl) as B3.
  (* the rest, for the state before or after the reallocation *)
  assert (Rest : forall h1 s1 buf1, load h1 sp = Some (OState V s1) -> load h1 (st_args s1) = Some (OBytes V buf1) -> load h1 irp = Some (OSamples V ir) -> size h <= size h1 ->
    st_args s1 <> irp -> length args <= length buf1 -> st_args_len s1 <= length buf1 -> st_ir s1 = Some irp ->
    exists h', (h <- free V h1 (st_ir s) ;; state_update V zero ir_f mem_ok junk f args (length args) sp [] (Some sp) h) = Some (Fail, Some sp, h') /\ broken h' sp).
  { intros h1 s1 buf1 J1 J2 J3 J4 J5 J6 J7 J8. rewrite Iir. destruct (free_ok V h1 irp _ J3) as (h2 & E2 & S2 & L2); rewrite E2; cbn [bind].
    unfold state_update, load_state. rewrite L2. replace (sp =? irp) with false by (symmetry; apply Nat.eqb_neq; auto). rewrite J1; cbn [bind].
    assert (L2a : load h2 (st_args s1) = Some (OBytes V buf1)) by (rewrite L2; ne).
    unfold load_bytes; rewrite L2a; cbn [bind].
    destruct (blit_some args 0 buf1 0 (length args)) as [buf' Eb]; try lia; rewrite Eb; cbn [bind].
    destruct (store_ok V h2 (st_args s1) (OBytes V buf') _ L2a) as (h3 & E3 & S3 & L3); rewrite E3; cbn [bind].
    rewrite Hf; cbn [free_all bind]. exists h3; split; [reflexivity|]. exists s1, buf', irp.
    assert (st_args s1 <> sp) by (intros e; rewrite e in J2; congruence). pose proof (blit_length _ _ _ _ _ _ Eb).
    splits; auto; try lia.
    - rewrite L3, L2; ne.
    - rewrite L3; ne.
    - rewrite L3, L2; ne. }
  destruct (Nat.ltb_spec (st_args_len s) (length args)) as [Hg|Hg].
  - set (nb := firstn (length args) buf ++ junkb (length args - length buf)).
    assert (Lnb : length nb = length args) by (unfold nb; rewrite app_length, firstn_length, junkb_len; lia).
    destruct (malloc_works V zero add mul ir_f mem_ok junkb junkb_len h (OBytes V nb) eq_refl) as (h1 & E1 & S1 & _ & L1).
    rewrite E1; cbn [bind].
    assert (L1a : load h1 (st_args s) = Some (OBytes V buf)) by (rewrite L1; ne).
    destruct (free_ok V h1 _ _ L1a) as (h2 & E2 & S2 & L2); rewrite E2; cbn [bind].
    assert (L2s : load h2 sp = Some (OState V s)) by (rewrite L2, L1; ne).
    match goal with |- context [store V h2 sp (OState V ?o)] => set (s1 := o); destruct (store_ok V h2 sp (OState V s1) _ L2s) as (h3 & E3 & S3 & L3) end; rewrite E3; cbn [bind].
    destruct (Rest h3 s1 nb) as (h4 & E4 & K4); try (cbn [st_args st_args_len st_ir s1]; auto; try lia; rewrite ?L3, ?L2, ?L1; ne; fail).
    rewrite E4; cbn [bind]. exists h4; split; [reflexivity|exact K4].
  - cbn [bind]. destruct (Rest h s buf) as (h4 & E4 & K4); auto; try lia.
    rewrite E4; cbn [bind]. exists h4; split; [reflexivity|exact K4].
Qed.

Lemma run_length : forall rest outs os os' g1 g2, run_calls rest os g1 = Some (outs, os', g2) -> length outs = length rest.
Proof.
  induction rest as [|d rest IH]; intros outs os os' g1 g2 E.
  - cbn [FilterModel.run_calls] in E. injection E as <- _ _. reflexivity.
  - cbn [FilterModel.run_calls] in E. apply bind_some in E. destruct E as ([[[r o] os1] g3] & Ea & E). apply bind_some in E. destruct E as ([[outs1 os3] g4] & Eb & E).
    injection E as <- _ _. cbn [length]. f_equal. eapply IH; eassumption.
Qed.
Lemma failed_change_run (first : call V) rest c :
  Forall (responds V ir_f) (first :: rest) -> changes V first (List.last rest first) c -> ir_f (c_f V c) (c_args V c) = None ->
  exists outs sp h', run_calls (first :: rest ++ [c]) None h0 = Some (outs ++ [(Fail, junk (length (c_in V c)))], Some sp, h') /\ length outs = S (length rest) /\
    Forall (fun r => fst r = Ok tt) outs /\ state_free V (Some sp) h' = None /\ forall c', run_calls [c'] (Some sp) h' = None.
Proof.
  intros HR Hch Hf; inversion HR as [|c' l [ir1 [Hf1 Hpos]] HR']; subst c' l.
  destruct (filter_first V zero add mul ir_f junk junkb junk_len junkb_len h0 (c_f V first) (c_args V first) ir1 (c_in V first) (junk (length (c_in V first))) Hf1 Hpos (junk_len _))
    as (h1 & sp & s1 & buf1 & irp1 & cl1 & out & E & I1 & F1 & A1 & G1 & _).
  destruct (run_inv rest first h1 sp s1 buf1 irp1 ir1 cl1 I1 G1 HR') as (outs & h2 & s2 & buf2 & irp2 & ir2 & cl2 & E2 & F2 & I2 & K1 & K2 & K3).
  destruct (failed_change h2 sp s2 buf2 irp2 ir2 cl2 (c_f V c) (c_args V c) (c_in V c) (junk (length (c_in V c))) I2 Hf) as (h3 & E3 & B3).
  { intros [X1 X2]. pose proof (inv_len _ _ _ _ _ _ _ _ _ I2) as Hl. rewrite K1, F1 in X1. assert (X3 : length (c_args V c) = length (c_args V first)) by (rewrite <- X2, firstn_length; lia).
    destruct Hch as [H|[H|[H H']]]; [congruence|congruence|]. apply H'. rewrite <- K3, <- H, X3, <- A1, <- K2. symmetry; exact X2. }
  assert (Hrun : forall calls os h outs os' h', run_calls calls os h = Some (outs, os', h') -> forall more outs2 os2 h2, run_calls more os' h' = Some (outs2, os2, h2) ->
    run_calls (calls ++ more) os h = Some (outs ++ outs2, os2, h2)).
  { clear. induction calls as [|d calls IH]; intros os h outs os' h' E more outs2 os2 h2 E2.
    - cbn [FilterModel.run_calls] in E. injection E as <- <- <-. exact E2.
    - cbn [FilterModel.run_calls app] in *. apply bind_some in E. destruct E as ([[[r o] os1] h1] & Ea & E). apply bind_some in E. destruct E as ([[outs1 os3] h3] & Eb & E). injection E as <- <- <-.
      rewrite Ea; cbn [bind]. rewrite (IH _ _ _ _ _ Eb _ _ _ _ E2). reflexivity. }
  exists ((Ok tt, out) :: outs), sp, h3. split.
  - cbn [FilterModel.run_calls app]. rewrite E; cbn [bind].
    assert (E4 : run_calls [c] (Some sp) h2 = Some ([(Fail, junk (length (c_in V c)))], Some sp, h3)) by (cbn [FilterModel.run_calls]; rewrite E3; reflexivity).
    rewrite (Hrun _ _ _ _ _ _ E2 _ _ _ _ E4). reflexivity.
  - splits; auto.
    + cbn [length]. f_equal. eapply run_length; eassumption.
    + apply broken_free; exact B3.
    + intros c'. cbn [FilterModel.run_calls]. rewrite broken_call by exact B3. reflexivity.
Qed.
End Change.

(** consequences of the remembered arguments *)
Section Stale.
Variable V : Type.
Variables (zero : V) (add mul : V -> V -> V).
Variable ir_f : nat -> list Z -> option (list V).
Variable junk : nat -> list V.
Variable junkb : nat -> list Z.
Hypothesis junk_len : forall n, length (junk n) = n.
Hypothesis junkb_len : forall n, length (junkb n) = n.
Variable h0 : heap V.
Notation run_calls := (run_calls V zero add mul ir_f (fun _ => true) junk junkb).
Notation three f1 a1 f2 a2 f3 a3 x1 x2 x3 := [{| c_in := x1; c_f := f1; c_args := a1 |}; {| c_in := x2; c_f := f2; c_args := a2 |}; {| c_in := x3; c_f := f3; c_args := a3 |}].

Lemma stale_function f1 f2 (a b : list Z) (x1 x2 x3 r1 r2 r3 : list V) :
  f1 <> f2 -> length a = length b -> ir_f f1 a = Some r1 -> ir_f f2 b = Some r2 -> ir_f f1 b = Some r3 -> 0 < length r1 -> 0 < length r2 -> 0 < length r3 ->
  exists outs st h', run_calls (three f1 a f2 b f1 b x1 x2 x3) None h0 = Some (outs, st, h') /\
    Forall (fun r => fst r = Ok tt) outs /\ concat (map snd outs) = filter_stream V zero add mul [] [(x1, r1); (x2, r2); (x3, r2)].
Proof.
  intros hf hl h1 h2 h3 p1 p2 p3.
  destruct (run_used V zero add mul ir_f junk junkb junk_len junkb_len h0 (three f1 a f2 b f1 b x1 x2 x3)) as (outs & st & h' & E & F & C).
  { constructor; [exists r1; auto|]. constructor; [exists r2; auto|]. constructor; [exists r3; auto|]. constructor. }
  exists outs, st, h'. splits; auto. rewrite C. unfold used_responses, response. cbn [map c_in c_f c_args combine remembered]. rewrite h1. replace (f2 =? f1) with false by (symmetry; apply Nat.eqb_neq; auto). cbn [andb].
  rewrite hl, skipn_all2 by lia. rewrite app_nil_r, firstn_all, Nat.eqb_refl. destruct (list_eq_dec Z.eq_dec b b) as [_|n]; [|contradiction]. unfold response; cbn [c_f c_args andb combine]. rewrite ?h2. reflexivity.
Qed.

Lemma stale_size f (a b : list Z) (x1 x2 x3 r1 r2 r3 : list V) :
  let c := firstn (length a) (b ++ skipn (length b) a) in
  length b <> length a -> ir_f f a = Some r1 -> ir_f f b = Some r2 -> ir_f f c = Some r3 -> 0 < length r1 -> 0 < length r2 -> 0 < length r3 ->
  exists outs st h', run_calls (three f a f b f c x1 x2 x3) None h0 = Some (outs, st, h') /\
    Forall (fun r => fst r = Ok tt) outs /\ concat (map snd outs) = filter_stream V zero add mul [] [(x1, r1); (x2, r2); (x3, r2)].
Proof.
  intros c hl h1 h2 h3 p1 p2 p3.
  destruct (run_used V zero add mul ir_f junk junkb junk_len junkb_len h0 (three f a f b f c x1 x2 x3)) as (outs & st & h' & E & F & C).
  { constructor; [exists r1; auto|]. constructor; [exists r2; auto|]. constructor; [exists r3; auto|]. constructor. }
  exists outs, st, h'. splits; auto. rewrite C. unfold used_responses, response. cbn [map c_in c_f c_args combine remembered]. rewrite h1, Nat.eqb_refl.
  destruct (list_eq_dec Z.eq_dec b a) as [e|_]; [exfalso; apply hl; rewrite e; reflexivity|]. cbn [andb]. fold c. destruct (list_eq_dec Z.eq_dec c c) as [_|n]; [|contradiction]. unfold response; cbn [c_f c_args combine]. rewrite ?h2. reflexivity.
Qed.
End Stale.
