(** Model of std/stack.zc. *)
From Verif Require Import Common Queue_Spec.

Section Stack.
  Context {A : Type}.

  (** std/stack.zc:4-8; [None] is a null [data] pointer. *)
  Record stack := mks { sdata : option (buf A); slen : nat; scap : nat }.

  (** std/stack.zc:11-13 *)
  Definition snew : stack := mks None 0 0.

  (** std/stack.zc:15-21: [cap] keeps its value. *)
  Definition sfree (s : stack) : stack := mks None 0 (scap s).

  (** std/stack.zc:23-30.  [malloc(0)] is taken to be non-null, as in glibc and
      musl.  memcpy of zero bytes from a null source is taken to be a no-op. *)
  Definition sclone (s : stack) : res stack :=
    let d := bnew (scap s) in
    do d <- (if slen s =? 0 then Ok d
             else match sdata s with
                  | None => UB
                  | Some src => bcopy src 0 d 0 (slen s)
                  end);
    Ok (mks (Some d) (slen s) (scap s)).

  (** std/stack.zc:32-43 *)
  Definition spush (s : stack) (x : A) : res stack :=
    let '(d, cap) := match sdata s with None => (bnew 8, 8) | Some d => (d, scap s) end in
    let '(d, cap) := if slen s =? cap then (brealloc d (cap * 2), cap * 2) else (d, cap) in
    do d <- bset d (slen s) x;
    Ok (mks (Some d) (slen s + 1) cap).

  (** std/stack.zc:45-52 *)
  Definition spop (s : stack) : res (stack * option A) :=
    if 0 <? slen s then
      match sdata s with
      | None => UB
      | Some d => do x <- bget d (slen s - 1);
                  Ok (mks (Some d) (slen s - 1) (scap s), Some x)
      end
    else Ok (s, None).

  (** std/stack.zc:54-64 *)
  Definition slength (s : stack) := slen s.
  Definition sclear (s : stack) : stack := mks (sdata s) 0 (scap s).
  Definition sis_empty (s : stack) := slen s =? 0.

  (** one call of the public API; [QFree] is [free] *)
  Definition s_step (s : stack) (op : qop A) : res (stack * qout A) :=
    match op with
    | QPush x => do s <- spush s x; Ok (s, QUnit)
    | QPop => do '(s, o) <- spop s; Ok (s, QItem o)
    | QLength => Ok (s, QNum (slength s))
    | QIsEmpty => Ok (s, QBool (sis_empty s))
    | QClear => Ok (sclear s, QUnit)
    | QFree => Ok (sfree s, QUnit)
    end.

  Fixpoint s_run (s : stack) (ops : list (qop A)) : res (stack * list (qout A)) :=
    match ops with
    | [] => Ok (s, [])
    | op :: ops => do '(s, o) <- s_step s op;
                   do '(s, os) <- s_run s ops;
                   Ok (s, o :: os)
    end.
End Stack.
Arguments stack : clear implicits.
