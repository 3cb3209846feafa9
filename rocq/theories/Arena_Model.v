(** Model of std/arena.zc.  usize arithmetic is modulo 2^64, written out.  Pointers are
    addresses; 0 is NULL.  [mem] is the block malloc returned (one entry per byte). *)
From Verif Require Import Common.
Local Open Scope N_scope.

Definition W : N := 2 ^ 64.

(** arena.zc:6-10 *)
Record arena := mkarena { base : N; mem : buf N; capacity : N; used : N }.

(** arena.zc:13-16; [addr]: what malloc returned, 0 if it failed *)
Definition arena_new (addr cap : N) : arena :=
  mkarena addr (if addr =? 0 then [] else bnew (N.to_nat cap)) cap 0.

(** arena.zc:18-26 *)
Definition alloc_bytes (a : arena) (size : N) : N * arena :=
  let aligned := N.land ((used a + 7) mod W) (W - 8) in
  if capacity a <? (aligned + size) mod W then (0, a)
  else ((base a + aligned) mod W, mkarena (base a) (mem a) (capacity a) ((aligned + size) mod W)).

(** Writing the bytes [b] at address [p]; undefined outside the block. *)
Definition store (a : arena) (p : N) (b : bytes) : res arena :=
  let off := N.to_nat (p - base a) in
  if (base a <=? p) && (Nat.leb (off + length b) (length (mem a)))
  then Ok (mkarena (base a) (firstn off (mem a) ++ map Some b ++ skipn (off + length b) (mem a))
                   (capacity a) (used a))
  else UB.

(** arena.zc:36-43 alloc_n<T>, [sz] = sizeof(T); arena.zc:28-34 alloc<T> is the case
    count = 1.  memset(ptr, 0, size): the bytes are only enumerated when they can fit. *)
Definition alloc_n (a : arena) (sz count : N) : res (N * arena) :=
  let size := (sz * count) mod W in
  let '(p, a) := alloc_bytes a size in
  if p =? 0 then Ok (p, a)
  else if N.of_nat (length (mem a)) <? size then UB
  else do a <- store a p (repeat 0 (N.to_nat size)); Ok (p, a).

(** arena.zc:45-52: strcpy copies the text and its NUL *)
Definition dup_str (a : arena) (src : bytes) : res (N * arena) :=
  let s := cstr src in
  let '(p, a) := alloc_bytes a ((N.of_nat (length s) + 1) mod W) in
  if p =? 0 then Ok (p, a)
  else do a <- store a p (s ++ [0]); Ok (p, a).

(** arena.zc:54-60 *)
Definition bytes_used (a : arena) : N := used a.
Definition bytes_free (a : arena) : N := (capacity a + W - used a) mod W.
(** arena.zc:62-74 *)
Definition save (a : arena) : N := used a.
Definition restore (a : arena) (mark : N) : arena :=
  if mark <=? used a then mkarena (base a) (mem a) (capacity a) mark else a.
Definition reset (a : arena) : arena := mkarena (base a) (mem a) (capacity a) 0.

(** Calls, and what they return.  A save is remembered by the caller, so Restore takes
    any number. *)
Inductive call :=
| AllocBytes (size : N) | AllocN (sz count : N) | DupStr (src : bytes)
| Save | Restore (mark : N) | Reset.

Definition step (a : arena) (c : call) : res (N * arena) :=
  match c with
  | AllocBytes n => Ok (alloc_bytes a n)
  | AllocN sz n => alloc_n a sz n
  | DupStr s => dup_str a s
  | Save => Ok (save a, a)
  | Restore m => Ok (0, restore a m)
  | Reset => Ok (0, reset a)
  end.

Fixpoint run (a : arena) (cs : list call) : res (list N * arena) :=
  match cs with
  | [] => Ok ([], a)
  | c :: cs =>
    do '(r, a) <- step a c;
    do '(rs, a) <- run a cs;
    Ok (r :: rs, a)
  end.
