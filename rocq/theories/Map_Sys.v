(** Running operations on the modelled map, with a bound [f] on every loop. *)
From Verif Require Import Common Hash_Model Map_Model Map_Spec.

Section Sys.
  Context {V : Type} (hash : bytes -> N) (f : nat).

  Definition m_step (m : hmap V) (op : mop V) : res (hmap V * mout V) :=
    match op with
    | MPut k v => do m <- map_put hash f m k v; Ok (m, MUnit)
    | MGet k => do o <- map_get hash f m k; Ok (m, MVal o)
    | MContains k => do b <- map_contains hash f m k; Ok (m, MBool b)
    | MRemove k => do m <- map_remove hash f m k; Ok (m, MUnit)
    | MLength => Ok (m, MNum (map_length m))
    | MIsEmpty => Ok (m, MBool (map_is_empty m))
    | MFree => do m <- map_free m; Ok (m, MUnit)
    end.

  Fixpoint m_run (m : hmap V) (ops : list (mop V)) : res (hmap V * list (mout V)) :=
    match ops with
    | [] => Ok (m, [])
    | op :: ops => do '(m, o) <- m_step m op;
                   do '(m, os) <- m_run m ops;
                   Ok (m, o :: os)
    end.
End Sys.
