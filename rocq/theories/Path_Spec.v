(** What the path functions should compute, on byte strings. *)
From Verif Require Import Common.

Definition sep (c : N) : Prop := c = ch "/" \/ c = 92%N.
Definition seps (b : bytes) : Prop := Forall sep b.
Definition no_sep (b : bytes) : Prop := Forall (fun c => ~ sep c) b.
(** [b] is empty or ends in a separator *)
Definition closed (b : bytes) : Prop := b = [] \/ exists d c, b = d ++ [c] /\ sep c.
(** [b] is empty or ends in something else *)
Definition open (b : bytes) : Prop := b = [] \/ exists d c, b = d ++ [c] /\ ~ sep c.

(** [b] is [dir], then the last component [name], then trailing separators. *)
Definition last_component (b dir name tail : bytes) : Prop :=
  b = dir ++ name ++ tail /\ closed dir /\ name <> [] /\ no_sep name /\ seps tail.
