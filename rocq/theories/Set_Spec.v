(** Specification of a finite set: a list without duplicates, given by its answers. *)
From Verif Require Import Common.

Inductive zop (T : Type) :=
| ZAdd (x : T) | ZContains (x : T) | ZRemove (x : T) | ZLength | ZIsEmpty | ZClear | ZFree.
Arguments ZAdd {T}. Arguments ZContains {T}. Arguments ZRemove {T}. Arguments ZLength {T}.
Arguments ZIsEmpty {T}. Arguments ZClear {T}. Arguments ZFree {T}.

Inductive zout := ZUnit | ZBool (b : bool) | ZNum (n : nat).

Section Spec.
  Context {T : Type} (eqb : T -> T -> bool).

  Definition mem (x : T) (l : list T) : bool := existsb (fun y => eqb y x) l.

  Definition zspec_step (l : list T) (op : zop T) : list T * zout :=
    match op with
    | ZAdd x => if mem x l then (l, ZBool false) else (x :: l, ZBool true)
    | ZContains x => (l, ZBool (mem x l))
    | ZRemove x => (filter (fun y => negb (eqb y x)) l, ZBool (mem x l))
    | ZLength => (l, ZNum (length l))
    | ZIsEmpty => (l, ZBool (match l with [] => true | _ => false end))
    | ZClear | ZFree => ([], ZUnit)
    end.

  Fixpoint zspec_run (l : list T) (ops : list (zop T)) : list T * list zout :=
    match ops with
    | [] => (l, [])
    | op :: ops => let '(l, o) := zspec_step l op in
                   let '(l, os) := zspec_run l ops in (l, o :: os)
    end.
End Spec.
