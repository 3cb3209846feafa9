(** Specification of a FIFO queue: a list, oldest item first. *)
From Verif Require Import Common.

Inductive qop (A : Type) := QPush (x : A) | QPop | QLength | QIsEmpty | QClear | QFree.
Arguments QPush {A}. Arguments QPop {A}. Arguments QLength {A}. Arguments QIsEmpty {A}.
Arguments QClear {A}. Arguments QFree {A}.

Inductive qout (A : Type) := QUnit | QItem (o : option A) | QNum (n : nat) | QBool (b : bool).
Arguments QUnit {A}. Arguments QItem {A}. Arguments QNum {A}. Arguments QBool {A}.

Definition fifo_step {A} (l : list A) (op : qop A) : list A * qout A :=
  match op with
  | QPush x => (l ++ [x], QUnit)
  | QPop => match l with [] => ([], QItem None) | x :: t => (t, QItem (Some x)) end
  | QLength => (l, QNum (length l))
  | QIsEmpty => (l, QBool (match l with [] => true | _ => false end))
  | QClear | QFree => ([], QUnit)
  end.

(** LIFO: a list, newest item first. *)
Definition lifo_step {A} (l : list A) (op : qop A) : list A * qout A :=
  match op with
  | QPush x => (x :: l, QUnit)
  | QPop => match l with [] => ([], QItem None) | x :: t => (t, QItem (Some x)) end
  | QLength => (l, QNum (length l))
  | QIsEmpty => (l, QBool (match l with [] => true | _ => false end))
  | QClear | QFree => ([], QUnit)
  end.

(** The answers to a list of operations. *)
Fixpoint answers {A} (step : list A -> qop A -> list A * qout A) (l : list A) (ops : list (qop A))
  : list (qout A) :=
  match ops with
  | [] => []
  | op :: ops => let '(l, o) := step l op in o :: answers step l ops
  end.
