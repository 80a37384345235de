From Coq Require Import ZArith String Bool Lia List.
From Verif Require Import NameModel NameSpec.
Open Scope Z_scope.
Open Scope string_scope.

Lemma name_known group id : status_name group id <> "unknown" <-> group = "sp" /\ exists f, failure_id f = id /\ named f.
Proof.
  split.
  - intros h. unfold status_name in h. destruct (String.eqb_spec "sp" group) as [<-|]; [|congruence]. split; [reflexivity|].
    repeat match type of h with context [Z.eqb ?k id] => destruct (Z.eqb_spec k id) as [e|] end; try congruence; subst id;
    [exists InputType|exists NotImplemented|exists Memory|exists FileWrite|exists FileRead|exists FileNotImplemented|exists FileEof|exists InvalidArgument]; (split; [reflexivity|split; discriminate]).
  - intros [-> (f & <- & h)]. destruct f; cbn; try discriminate; destruct h; congruence.
Qed.
Lemma name_distinct f g : named f -> named g -> (status_name "sp" (failure_id f) = status_name "sp" (failure_id g) <-> same_name f g).
Proof.
  intros [h1 h2] [h3 h4]. unfold same_name. destruct f, g; cbn; try congruence; (split; [intros h; try discriminate h; auto|intros [h|[[h h']|[h h']]]; try discriminate; try reflexivity]).
Qed.
Lemma description_known group id : (exists d, status_description group id = Some d /\ d <> "") <-> group = "sp" /\ exists f, failure_id f = id /\ f <> Undefined.
Proof.
  split.
  - intros (d & h & hd). unfold status_description in h. destruct (String.eqb_spec "sp" group) as [<-|].
    2: { destruct (String.eqb "sph" group); [discriminate|]. congruence. }
    split; [reflexivity|].
    repeat match type of h with context [Z.eqb ?k id] => destruct (Z.eqb_spec k id) as [e|] end; try congruence; subst id;
    [exists Eof|exists InputType|exists NotImplemented|exists Memory|exists FileWrite|exists FileRead|exists FileNotImplemented|exists FileEof|exists InvalidArgument]; (split; [reflexivity|discriminate]).
  - intros [-> (f & <- & h)]. destruct f; cbn; try congruence; (eexists; split; [reflexivity|discriminate]).
Qed.
Lemma description_distinct f g : f <> Undefined -> g <> Undefined -> (status_description "sp" (failure_id f) = status_description "sp" (failure_id g) <-> same_description f g).
Proof.
  intros h1 h3. unfold same_description. destruct f, g; cbn; try congruence; (split; [intros h; try discriminate h; auto|intros [h|[[h h']|[h h']]]; try discriminate; try reflexivity]).
Qed.
Lemma description_undefined group id : status_description group id = None <-> group = "sph".
Proof.
  unfold status_description. destruct (String.eqb_spec "sp" group) as [<-|]; [split; discriminate|]. destruct (String.eqb_spec "sph" group) as [<-|h]; [split; reflexivity|].
  split; [discriminate|congruence].
Qed.
