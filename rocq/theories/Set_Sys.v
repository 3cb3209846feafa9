From Verif Require Import Common Hash_Model Set_Model Set_Spec.

Section Sys.
  Context {T : Type} (eqb : T -> T -> bool) (hash : T -> N) (f : nat).

  Definition z_step (z : zset T) (op : zop T) : res (zset T * zout) :=
    match op with
    | ZAdd x => do '(z, b) <- set_add eqb hash f z x; Ok (z, ZBool b)
    | ZContains x => do b <- set_contains eqb hash f z x; Ok (z, ZBool b)
    | ZRemove x => do '(z, b) <- set_remove eqb hash f z x; Ok (z, ZBool b)
    | ZLength => Ok (z, ZNum (set_length z))
    | ZIsEmpty => Ok (z, ZBool (set_is_empty z))
    | ZClear => Ok (set_clear z, ZUnit)
    | ZFree => Ok (set_free z, ZUnit)
    end.

  Fixpoint z_run (z : zset T) (ops : list (zop T)) : res (zset T * list zout) :=
    match ops with
    | [] => Ok (z, [])
    | op :: ops => do '(z, o) <- z_step z op;
                   do '(z, os) <- z_run z ops;
                   Ok (z, o :: os)
    end.
End Sys.
