(** Identifiers, and the type arguments for which mangling is one-to-one. *)
From Verif Require Import Common.
Local Open Scope nat_scope.

Definition letter (c : N) : Prop :=
  (97 <= c <= 122 \/ 65 <= c <= 90 \/ 48 <= c <= 57 \/ c = 95)%N.
Definition identifier (s : bytes) : Prop := Forall letter s.
(** A name with any number of stars after it *)
Definition pointers (name : bytes) (k : nat) : bytes := name ++ repeat 42%N k.
(** a type argument: a name that does not end in "Ptr", or a pointer (to a pointer ...) to one *)
Definition simple (s : bytes) : Prop :=
  exists name k, s = pointers name k /\ identifier name /\ ~ (exists p, name = p ++ bs "Ptr").
