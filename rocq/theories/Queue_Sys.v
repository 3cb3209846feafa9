(** Running operations on the modelled queue. *)
From Verif Require Import Common Queue_Model Queue_Spec.

Definition q_step {A} (q : queue A) (op : qop A) : res (queue A * qout A) :=
  match op with
  | QPush x => do q <- qpush q x; Ok (q, QUnit)
  | QPop => do '(q, o) <- qpop q; Ok (q, QItem o)
  | QLength => Ok (q, QNum (qlength q))
  | QIsEmpty => Ok (q, QBool (qis_empty q))
  | QClear => Ok (qclear q, QUnit)
  | QFree => Ok (qfree q, QUnit)
  end.

Fixpoint q_run {A} (q : queue A) (ops : list (qop A)) : res (queue A * list (qout A)) :=
  match ops with
  | [] => Ok (q, [])
  | op :: ops => do '(q, o) <- q_step q op;
                 do '(q, os) <- q_run q ops;
                 Ok (q, o :: os)
  end.
