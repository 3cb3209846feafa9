(** Edit distance: the least number of single-character edits that turn one string into
    the other. *)
From Verif Require Import Common.
Local Open Scope nat_scope.

Inductive edit : bytes -> bytes -> Prop :=
| insert a x b : edit (a ++ b) (a ++ x :: b)
| delete a x b : edit (a ++ x :: b) (a ++ b)
| replace a x y b : edit (a ++ x :: b) (a ++ y :: b).
Inductive edits : nat -> bytes -> bytes -> Prop :=
| edits_0 s : edits 0 s s
| edits_S n s t u : edit s t -> edits n t u -> edits (S n) s u.
Definition distance (s t : bytes) (d : nat) : Prop := edits d s t /\ forall n, edits n s t -> d <= n.
