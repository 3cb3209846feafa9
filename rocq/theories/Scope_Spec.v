(** Lexical scoping, stated on the history of scope entries, exits and declarations. *)
From Verif Require Import Common Scope_Model.
Local Open Scope nat_scope.

Section Spec.
Context {A : Type}.

(** Properly nested histories *)
Inductive balanced : list (op A) -> Prop :=
| b_nil : balanced []
| b_add n a h : balanced h -> balanced (Add n a :: h)
| b_block h h' : balanced h -> balanced h' -> balanced (Enter :: h ++ Exit :: h').

(** Reading the history backwards, with [closed] the number of scopes that were left later
    and have not been entered yet: the declaration of [n] that is in force *)
Fixpoint in_force (closed : nat) (back : list (op A)) (n : bytes) : option A :=
  match back with
  | [] => None
  | Exit :: r => in_force (S closed) r n
  | Enter :: r => in_force (closed - 1) r n
  | Add m a :: r =>
    if (closed =? 0) && beq_bytes m n then Some a else in_force closed r n
  end.
Definition declared (h : list (op A)) (n : bytes) : option A := in_force 0 (rev h) n.

(** How many scopes are open; no scope is left that was not entered *)
Fixpoint depth (d : nat) (h : list (op A)) : option nat :=
  match h with
  | [] => Some d
  | Enter :: r => depth (S d) r
  | Exit :: r => match d with O => None | S d' => depth d' r end
  | Add _ _ :: r => depth d r
  end.
Definition nested (h : list (op A)) : Prop := exists d, depth 0 h = Some d.

(** The most recent declaration of [n], in whatever scope *)
Definition last_declared (h : list (op A)) (n : bytes) : option A :=
  fold_left (fun r o => match o with Add m a => if beq_bytes m n then Some a else r | _ => r end) h None.
End Spec.
