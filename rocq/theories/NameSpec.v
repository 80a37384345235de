(** Which failures there are. *)
From Coq Require Import ZArith String List.
Import ListNotations.
Open Scope Z_scope.
(** the failures of the library itself, group "sp", /repo/source/c-precompiled/sph-sp/main.h:13-22, by meaning *)
Inductive failure := Undefined | FileWrite | FileRead | FileNotImplemented | FileEof | Eof | InputType | Memory | InvalidArgument | NotImplemented.
Definition failure_id (f : failure) : Z :=
  match f with Undefined => 1 | FileWrite => 2 | FileRead => 3 | FileNotImplemented => 4 | FileEof => 5 | Eof => 6 | InputType => 7 | Memory => 8 | InvalidArgument => 9 | NotImplemented => 10 end.
(** the failures that have a name *)
Definition named (f : failure) : Prop := f <> Undefined /\ f <> Eof.
(** the failures that share a name *)
Definition same_name (f g : failure) : Prop := f = g \/ (f = FileNotImplemented /\ g = NotImplemented) \/ (f = NotImplemented /\ g = FileNotImplemented).
Definition same_description (f g : failure) : Prop := f = g \/ (f = FileEof /\ g = Eof) \/ (f = Eof /\ g = FileEof).
