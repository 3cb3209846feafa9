(** Specification of a finite map from byte strings: an association list without
    duplicate keys, given through its operations. *)
From Verif Require Import Common.

Inductive mop (V : Type) :=
| MPut (k : bytes) (v : V) | MGet (k : bytes) | MContains (k : bytes) | MRemove (k : bytes)
| MLength | MIsEmpty | MFree.
Arguments MPut {V}. Arguments MGet {V}. Arguments MContains {V}. Arguments MRemove {V}.
Arguments MLength {V}. Arguments MIsEmpty {V}. Arguments MFree {V}.

Inductive mout (V : Type) := MUnit | MVal (o : option V) | MBool (b : bool) | MNum (n : nat).
Arguments MUnit {V}. Arguments MVal {V}. Arguments MBool {V}. Arguments MNum {V}.

Section Spec.
  Context {V : Type}.

  Fixpoint lookup (k : bytes) (l : list (bytes * V)) : option V :=
    match l with
    | [] => None
    | (k', v) :: l => if beq_bytes k' k then Some v else lookup k l
    end.

  Definition without (k : bytes) (l : list (bytes * V)) : list (bytes * V) :=
    filter (fun p => negb (beq_bytes (fst p) k)) l.

  Definition mspec_step (l : list (bytes * V)) (op : mop V) : list (bytes * V) * mout V :=
    match op with
    | MPut k v => ((k, v) :: without k l, MUnit)
    | MGet k => (l, MVal (lookup k l))
    | MContains k => (l, MBool (match lookup k l with Some _ => true | None => false end))
    | MRemove k => (without k l, MUnit)
    | MLength => (l, MNum (length l))
    | MIsEmpty => (l, MBool (match l with [] => true | _ => false end))
    | MFree => ([], MUnit)
    end.

  Fixpoint mspec_run (l : list (bytes * V)) (ops : list (mop V)) : list (bytes * V) * list (mout V) :=
    match ops with
    | [] => (l, [])
    | op :: ops => let '(l, o) := mspec_step l op in
                   let '(l, os) := mspec_run l ops in (l, o :: os)
    end.

  Definition is_remove (op : mop V) : bool := match op with MRemove _ => true | _ => false end.
  Definition removes (ops : list (mop V)) : nat := length (filter is_remove ops).
End Spec.
