(** Every object is destroyed exactly once. *)
From Verif Require Import Common Raii_Model.
Local Open Scope nat_scope.

(** How often an event occurs in a history *)
Fixpoint times (p : event -> bool) (l : list event) : nat :=
  match l with [] => 0 | ev :: l => (if p ev then 1 else 0) + times p l end.
Definition is_created (o : nat) (ev : event) : bool := match ev with Created o' => o' =? o | _ => false end.
Definition is_dropped (o : nat) (ev : event) : bool := match ev with Dropped (Some o') => o' =? o | _ => false end.
Definition is_lost (o : nat) (ev : event) : bool := match ev with Lost o' => o' =? o | _ => false end.

(** Limits on the program: no variable has the name of another one in scope, and at most
    1024 are in scope at once; if [strict], variables are not assigned to after their
    declaration and no call's object is thrown away. *)
Section Limits.
Variable prog : list func.
Variable strict : bool.
Fixpoint ok_stmt (scope : list name) (s : stmt) {struct s} : Prop :=
  match s with
  | Let x _ | Decl x => ~ In x scope /\ (N.of_nat (length scope) < 1024)%N
  | Assign _ _ => strict = false
  | Do f _ => strict = true -> forall fn, nth_error prog f = Some fn -> returns fn = false
  | Block l | While l => ok_items scope l
  | If t e => ok_items scope t /\ ok_items scope e
  | Break | Continue | Return _ => True
  end
with ok_items (scope : list name) (l : items) {struct l} : Prop :=
  match l with
  | Nil => True
  | Then s l => ok_stmt scope s /\ ok_items (match s with Let x _ | Decl x => x :: scope | _ => scope end) l
  end.
Definition ok_func (f : func) : Prop :=
  NoDup (params f) /\ (N.of_nat (length (params f)) <= 1024)%N /\ ok_items (rev (params f)) (body f).
Definition ok_prog : Prop := Forall ok_func prog.
End Limits.
