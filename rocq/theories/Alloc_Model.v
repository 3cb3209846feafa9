(** The compiler's own allocator (src/utils/utils.c:9-92).  Memory is addressed by block
    and offset into the block's data; an access outside the data of a block is UB.  What a
    new block contains is unspecified: [mem] is an arbitrary function at the start. *)
From Verif Require Import Common.
Local Open Scope N_scope.

Definition wrap (n : N) : N := n mod 2 ^ 64.
Definition ptr : Type := (nat * N)%type.
(** utils.c:12-18 ArenaBlock: [rooms] are the bytes each block really has; [cap] and [used]
    are those of the current block, the last one *)
Record state := { mem : nat -> N -> N; rooms : list N; cap : N; used : N }.

Definition store (st : state) (p : ptr) (v : N) : res state :=
  let '(b, o) := p in
  match nth_error (rooms st) b with
  | Some r => if o <? r then Ok {| mem := fun b' o' => if (Nat.eqb b' b && (o' =? o))%bool then v else mem st b' o';
                                   rooms := rooms st; cap := cap st; used := used st |}
              else UB
  | None => UB
  end.
Definition load (st : state) (p : ptr) : res N :=
  let '(b, o) := p in
  match nth_error (rooms st) b with
  | Some r => if o <? r then Ok (mem st b o) else UB
  | None => UB
  end.
Fixpoint store_list (st : state) (b : nat) (o : N) (l : list N) : res state :=
  match l with
  | [] => Ok st
  | v :: l => do st <- store st (b, o) v; store_list st b (o + 1) l
  end.
Fixpoint load_list (st : state) (b : nat) (o : N) (n : nat) : res (list N) :=
  match n with
  | O => Ok []
  | S n => do v <- load st (b, o); do l <- load_list st b (o + 1) n; Ok (v :: l)
  end.
(** A size_t in memory: eight bytes, least significant first *)
Fixpoint to_le (n : nat) (v : N) : list N :=
  match n with O => [] | S n => v mod 256 :: to_le n (v / 256) end.
Fixpoint of_le (l : list N) : N :=
  match l with [] => 0 | b :: l => b + 256 * of_le l end.

Section Malloc.
(** Whether the system can give the k-th block *)
Variable malloc_ok : nat -> N -> bool.

(** utils.c:21-46 arena_alloc_raw; Panic is "Out of memory" *)
Definition arena_alloc_raw (st : state) (size : N) : res (state * ptr) :=
  let actual := wrap (size + 8) in
  let actual := N.ldiff (wrap (actual + 7)) 7 in
  do st <-
    (if Nat.eqb (length (rooms st)) 0 || (cap st <? wrap (used st + actual)) then
       let block_size := if 1048576 <? actual then actual else 1048576 in
       if malloc_ok (length (rooms st)) (wrap (24 + block_size)) then
         Ok {| mem := mem st; rooms := rooms st ++ [wrap (24 + block_size) - 24]; cap := block_size; used := 0 |}
       else Panic
     else Ok st);
  let b := (length (rooms st) - 1)%nat in
  let o := used st in
  do st <- store_list {| mem := mem st; rooms := rooms st; cap := cap st; used := wrap (used st + actual) |} b o (to_le 8 size);
  Ok (st, (b, o + 8)).

(** utils.c:51-54 *)
Definition xmalloc := arena_alloc_raw.
(** utils.c:56-62 *)
Definition xcalloc (st : state) (n size : N) : res (state * ptr) :=
  let total := wrap (n * size) in
  do r <- arena_alloc_raw st total;
  let '(st, (b, o)) := r in
  do st <- store_list st b o (repeat 0 (N.to_nat total));
  Ok (st, (b, o)).
(** utils.c:64-79; the null pointer is None *)
Definition xrealloc (st : state) (p : option ptr) (new_size : N) : res (state * ptr) :=
  match p with
  | None => xmalloc st new_size
  | Some (b, o) =>
    do h <- load_list st b (o - 8) 8;
    let old_size := of_le h in
    if new_size <=? old_size then Ok (st, (b, o))
    else
      do r <- xmalloc st new_size;
      let '(st, (b', o')) := r in
      do l <- load_list st b o (N.to_nat old_size);
      do st <- store_list st b' o' l;
      Ok (st, (b', o'))
  end.
(** utils.c:81-92 *)
Definition xstrdup (st : state) (s : bytes) : res (state * ptr) :=
  let len := N.of_nat (length s) in
  do r <- xmalloc st (wrap (len + 1));
  let '(st, (b, o)) := r in
  do st <- store_list st b o s;
  do st <- store st (b, o + len) 0;
  Ok (st, (b, o)).

(** What the rest of the compiler does with the allocator.  Pointers are named by the
    number of the call that returned them. *)
Inductive op :=
| Malloc (size : N) | Calloc (n size : N) | Realloc (h : option nat) (size : N) | Strdup (s : bytes)
| Write (h : nat) (i : N) (v : N) | Read (h : nat) (i : N).

Definition start (m : nat -> N -> N) : state := {| mem := m; rooms := []; cap := 0; used := 0 |}.
(** Runs the operations and returns what the reads returned *)
Fixpoint run (st : state) (ps : list ptr) (l : list op) : res (state * list ptr * list N) :=
  match l with
  | [] => Ok (st, ps, [])
  | Malloc n :: l => do r <- xmalloc st n; run (fst r) (ps ++ [snd r]) l
  | Calloc n s :: l => do r <- xcalloc st n s; run (fst r) (ps ++ [snd r]) l
  | Realloc None n :: l => do r <- xrealloc st None n; run (fst r) (ps ++ [snd r]) l
  | Realloc (Some h) n :: l =>
    match nth_error ps h with
    | Some p => do r <- xrealloc st (Some p) n; run (fst r) (ps ++ [snd r]) l
    | None => UB
    end
  | Strdup s :: l => do r <- xstrdup st s; run (fst r) (ps ++ [snd r]) l
  | Write h i v :: l =>
    match nth_error ps h with
    | Some (b, o) => do st <- store st (b, o + i) v; run st ps l
    | None => UB
    end
  | Read h i :: l =>
    match nth_error ps h with
    | Some (b, o) =>
      do v <- load st (b, o + i);
      do r <- run st ps l;
      let '(st, ps, out) := r in Ok (st, ps, v :: out)
    | None => UB
    end
  end.
End Malloc.
