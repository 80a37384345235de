(** Property C105: failures can be told apart by name and description *)
From Coq Require Import ZArith String List.
From Verif Require Import NameModel NameSpec NameProofs.
Open Scope Z_scope.
Open Scope string_scope.

(** C105 (partial): sp_status_name knows exactly the failures of the library except the undefined failure and the end of a file that is not a sound file, and
    gives different names to different failures, except that the two kinds of "not implemented" share theirs. Missing: those exceptions and
    failures of the other groups, see the refutation. *)
Theorem c105_names_partial :
  (forall (group : string) (id : Z), status_name group id <> "unknown" <-> group = "sp" /\ exists f, failure_id f = id /\ named f) /\
  (forall f g, named f -> named g -> (status_name "sp" (failure_id f) = status_name "sp" (failure_id g) <-> same_name f g)).
Proof. exact (conj name_known name_distinct). Qed.
Print Assumptions c105_names_partial.
Example c105_names_instance : status_name "sp" (failure_id FileRead) = "invalid-file-read" /\ named FileRead /\ named Memory.
Proof. split; [reflexivity|]. split; split; discriminate. Qed.

(** C105 (partial): the same for sp_status_description: it describes exactly the failures of the library except the undefined one; the two kinds of
    "end of file" share their description. *)
Theorem c105_descriptions_partial :
  (forall (group : string) (id : Z), (exists d, status_description group id = Some d /\ d <> "") <-> group = "sp" /\ exists f, failure_id f = id /\ f <> Undefined) /\
  (forall f g, f <> Undefined -> g <> Undefined -> (status_description "sp" (failure_id f) = status_description "sp" (failure_id g) <-> same_description f g)).
Proof. exact (conj description_known description_distinct). Qed.
Print Assumptions c105_descriptions_partial.
Example c105_descriptions_instance : status_description "sp" (failure_id Memory) = Some "memory allocation error".
Proof. reflexivity. Qed.

(** C105 refuted: for failures of allocation helpers (group "sph") and only for them the description is an indeterminate pointer, whatever the id; failures that the
    description knows have no name. *)
Theorem c105_refuted :
  (forall (group : string) (id : Z), status_description group id = None <-> group = "sph") /\
  status_name "sp" (failure_id Eof) = status_name "sp" (failure_id Undefined) /\ status_description "sp" (failure_id Eof) <> status_description "sp" (failure_id Undefined).
Proof. split; [exact description_undefined|]. split; [reflexivity|discriminate]. Qed.
Print Assumptions c105_refuted.
Example c105_refuted_instance : status_description "sph" 0 = None /\ status_description "libc" 0 = Some "".
Proof. split; reflexivity. Qed.
