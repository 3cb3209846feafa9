(** Model of Option<T> and Result<T> holding values of a type that implements Drop:
    std/option.zc, std/result.zc (the functions the two share are the same up to the name of
    the flag and the message of the panic; err is a borrowed string and plays no part).

    What the compiler adds around them: a variable or parameter of type T is dropped at the
    end of its scope unless it was moved (Raii_Model.v); an instance of a generic struct
    never gets drop glue (C37_instance_refuted), so an Option going out of scope drops
    nothing, and passing one copies it (codegen_utils.c:952-984).
    Simplification: the calls of a program are a list of operations on numbered options and
    numbered variables of type T; the objects are numbered in the order of creation. *)
From Verif Require Import Common.
Local Open Scope nat_scope.

(** The bytes of a T: all zero, or those of object [n] *)
Inductive payload := Zeroed | Obj (n : nat).
(** option.zc:3-6 *)
Record opt := { is_some : bool; val : payload }.

(** option.zc:9-11 and 13-15; result.zc:10-16 *)
Definition some (v : payload) : opt := Build_opt true v.
Definition none : opt := Build_opt false Zeroed.
(** option.zc:25-27; result.zc:26-28 *)
Definition forget (o : opt) : opt := Build_opt (is_some o) Zeroed.
(** option.zc:29-37; result.zc:30-38.  The flag stays. *)
Definition unwrap (o : opt) : res (payload * opt) :=
  if is_some o then Ok (val o, Build_opt true Zeroed) else Panic.
(** option.zc:54-60; result.zc:48-54 *)
Definition expect (o : opt) : res payload := if is_some o then Ok (val o) else Panic.
(** option.zc:47-52: the result, and what the end of the function drops: the parameter,
    unless it was returned (codegen_stmt.c:1609-1645, 1650-1664) *)
Definition unwrap_or (o : opt) (d : payload) : payload * list payload :=
  if is_some o then (val o, [d]) else (d, []).
(** option.zc:62-65 *)
Definition or_else (o other : opt) : opt := if is_some o then o else other.

(** * Programs *)
Inductive op :=
| OSome              (* an option holding a new object *)
| ONone
| OTest (i : nat)    (* i.is_some() *)
| OUnwrap (i : nat)
| OExpect (i : nat)
| OUnwrapOr (i : nat)     (* with a new object *)
| OOrElse (i j : nat)
| OForget (i : nat)
| OEnd (i : nat)     (* option i goes out of scope *)
| ODrop (k : nat).   (* variable k goes out of scope *)

Inductive event := Got (v : payload) | Told (b : bool) | Dropped (v : payload).
(** [vars]: [None] after the variable's end *)
Record st := { opts : list opt; vars : list (option payload); next : nat }.
Definition empty : st := Build_st [] [] 0.

(** An index that does not exist is [UB]: there is no such program *)
Definition at_ {A} (l : list A) (i : nat) : res A := match nth_error l i with Some x => Ok x | None => UB end.
Definition step (s : st) (o : op) : res (st * list event) :=
  match o with
  | OSome => Ok (Build_st (opts s ++ [some (Obj (next s))]) (vars s) (S (next s)), [])
  | ONone => Ok (Build_st (opts s ++ [none]) (vars s) (next s), [])
  | OTest i => do x <- at_ (opts s) i; Ok (s, [Told (is_some x)])
  | OUnwrap i =>
    do x <- at_ (opts s) i; do '(v, x') <- unwrap x;
    Ok (Build_st (upd (opts s) i x') (vars s ++ [Some v]) (next s), [Got v])
  | OExpect i =>
    do x <- at_ (opts s) i; do v <- expect x; Ok (Build_st (opts s) (vars s ++ [Some v]) (next s), [Got v])
  | OUnwrapOr i =>
    do x <- at_ (opts s) i;
    let '(v, ds) := unwrap_or x (Obj (next s)) in
    Ok (Build_st (opts s) (vars s ++ [Some v]) (S (next s)), map Dropped ds ++ [Got v])
  | OOrElse i j =>
    do x <- at_ (opts s) i; do y <- at_ (opts s) j; Ok (Build_st (opts s ++ [or_else x y]) (vars s) (next s), [])
  | OForget i => do x <- at_ (opts s) i; Ok (Build_st (upd (opts s) i (forget x)) (vars s) (next s), [])
  | OEnd i => do x <- at_ (opts s) i; Ok (s, [])
  | ODrop k =>
    do x <- at_ (vars s) k;
    match x with Some v => Ok (Build_st (opts s) (upd (vars s) k None) (next s), [Dropped v]) | None => UB end
  end.
Fixpoint run (s : st) (l : list op) : res (st * list event) :=
  match l with
  | [] => Ok (s, [])
  | o :: r => do '(s1, e1) <- step s o; do '(s2, e2) <- run s1 r; Ok (s2, e1 ++ e2)
  end.
