(** Model of `for x in v`, `for x in &v` on a Vec and `for x in a` on a fixed array, with a
    body that works on the collection: the desugaring of parser_stmt.c:1271-1548
      { let __it = v.iterator();
        while (1) { let __opt = __it.next(); if (__opt.is_none()) break;
                    let x = __opt.unwrap(); { body } } }
    over std/vec.zc and std/slice.zc.

    Simplifications: the operations are those of Vec_Model.v; the address of the vector's
    block is a number that changes when realloc or free is called on it; a read or write
    through an older number is [UB] (C leaves the old pointer indeterminate after realloc,
    wherever the block ends up).  A body is any function from the number of the visit, the
    item and the contents of the vector to the operations it performs and how it ends. *)
From Verif Require Import Common Vec_Model.
Local Open Scope nat_scope.

(** What a body does to the vector; [Store]: an assignment to the loop variable
    (`x = y`, or `*x = y` in the loop by reference) *)
Inductive act (A : Type) :=
| Push (x : A) | Insert (k : nat) (x : A) | Pop | Remove (k : nat) | Assign (k : nat) (x : A)
| Clear | Free | Store (x : A).
Arguments Push {A}. Arguments Insert {A}. Arguments Pop {A}. Arguments Remove {A}.
Arguments Assign {A}. Arguments Clear {A}. Arguments Free {A}. Arguments Store {A}.

(** [Next]: the end of the body, or continue *)
Inductive ending := Next | Break | Return.
Inductive style := ByValue | ByRef.

Section ForIn.
  Context {A : Type}.
  (** The vector variable and the address of its block *)
  Record place := { vec_ : vec A; blk : nat }.
  (** vec.zc:11-15, 35-39: VecIter and VecIterRef.  The pointer is the block's number. *)
  Record iter := { i_blk : nat; i_count : nat; i_idx : nat }.

  (** vec.zc:106-120: iterator and iter_ref *)
  Definition iterator (p : place) : iter := Build_iter (blk p) (len (vec_ p)) 0.
  (** Access through a pointer to block [b] *)
  Definition through {B} (p : place) (b : nat) (r : res B) : res B := if b =? blk p then r else UB.
  (** vec.zc:42-49 and 57-64, followed by the body's first use of the item *)
  Definition next (p : place) (it : iter) : res (iter * option A) :=
    if i_idx it <? i_count it then
      do x <- through p (i_blk it) (bget (data (vec_ p)) (i_idx it));
      Ok (Build_iter (i_blk it) (i_count it) (i_idx it + 1), Some x)
    else Ok (it, None).

  (** The variable after an operation: realloc (vec.zc:90) happens exactly when the capacity
      changes *)
  Definition moved (p : place) (v : vec A) : place :=
    Build_place v (if cap v =? cap (vec_ p) then blk p else S (blk p)).
  (** [cur]: the pointer held by the loop variable of a loop by reference *)
  Definition act_run (how : style) (cur : nat * nat) (p : place) (a : act A) : res place :=
    let v := vec_ p in
    match a with
    | Push x => do v' <- vpush v x; Ok (moved p v')
    | Insert k x => do v' <- vinsert v k x; Ok (moved p v')
    | Pop => do '(v', _) <- vpop v; Ok (moved p v')
    | Remove k => do '(v', _) <- vremove v k; Ok (moved p v')
    | Assign k x => do v' <- vset v k x; Ok (moved p v')
    | Clear => Ok (moved p (vclear v))
    | Free => Ok (Build_place (vfree v) (S (blk p)))
    | Store x =>
      match how with
      | ByValue => Ok p
      | ByRef =>
        do d <- through p (fst cur) (bset (data v) (snd cur) x);
        Ok (Build_place (mkvec d (len v) (cap v)) (blk p))
      end
    end.
  Fixpoint acts_run (how : style) (cur : nat * nat) (p : place) (l : list (act A)) : res place :=
    match l with [] => Ok p | a :: r => do p' <- act_run how cur p a; acts_run how cur p' r end.

  (** The items of the vector, for the body to look at *)
  Definition contents (v : vec A) : list A :=
    flat_map (fun c => match c with Some x => [x] | None => [] end) (firstn (len v) (data v)).

  Variable body : nat -> A -> list A -> list (act A) * ending.

  (** The while loop.  The result: the items visited, how the loop ended, the vector. *)
  Fixpoint loop (fuel : nat) (how : style) (k : nat) (it : iter) (p : place) : res (list A * ending * place) :=
    match fuel with
    | 0 => Fuel
    | S f =>
      do '(it', o) <- next p it;
      match o with
      | None => Ok ([], Next, p)
      | Some x =>
        let '(acts, e) := body k x (contents (vec_ p)) in
        do p' <- acts_run how (i_blk it, i_idx it) p acts;
        match e with
        | Next => do '(xs, e', p'') <- loop f how (S k) it' p'; Ok (x :: xs, e', p'')
        | Break => Ok ([x], Next, p')
        | Return => Ok ([x], Return, p')
        end
      end
    end.
  (** The whole statement.  The loop calls next at most once more than there are items. *)
  Definition for_in (how : style) (p : place) : res (list A * ending * place) :=
    loop (S (len (vec_ p))) how 0 (iterator p) p.
End ForIn.
Arguments place : clear implicits.

(** * Fixed arrays: parser_stmt.c:1303-1376, slice.zc:14-48.  The slice points at the array
    itself; a[i] = x is not checked (C) *)
Section Arrays.
  Context {A : Type}.
  Fixpoint arr_acts (a : buf A) (l : list (nat * A)) : res (buf A) :=
    match l with [] => Ok a | (i, x) :: r => do a' <- bset a i x; arr_acts a' r end.
  Definition items (a : buf A) : list A :=
    flat_map (fun c => match c with Some x => [x] | None => [] end) a.
  Variable body : nat -> A -> list A -> list (nat * A) * ending.
  Fixpoint arr_loop (fuel count idx : nat) (a : buf A) : res (list A * ending * buf A) :=
    match fuel with
    | 0 => Fuel
    | S f =>
      if idx <? count then
        do x <- bget a idx;
        let '(acts, e) := body idx x (items a) in
        do a' <- arr_acts a acts;
        match e with
        | Next => do '(xs, e', a'') <- arr_loop f count (idx + 1) a'; Ok (x :: xs, e', a'')
        | Break => Ok ([x], Next, a')
        | Return => Ok ([x], Return, a')
        end
      else Ok ([], Next, a)
    end.
  Definition for_in_array (a : buf A) : res (list A * ending * buf A) :=
    arr_loop (S (length a)) (length a) 0 a.
End Arrays.
