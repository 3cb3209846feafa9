(** Model of std/slice.zc:4-66 (Slice, SliceIter) and std/mem.zc:1-66 (alloc_n, zalloc, Box,
    mem_zero, mem_copy, swap).

    Memory is a list of live or freed blocks of elements of one type T of [sz] bytes; a pointer
    is a block and an index; null is [None].  Reading or writing outside a live block is [UB],
    so is freeing a block twice.  usize arithmetic wraps at 2^64.  malloc and calloc succeed.
    Simplification: memcpy and memset of whole elements; a block of n bytes holds n / sz of
    them. *)
From Verif Require Import Common.
Local Open Scope Z_scope.

Section Mem.
Variable T : Type.
Variable zero : T.              (* the element all of whose bytes are zero *)
Variable sz : Z.                (* sizeof(T) *)

Inductive blk := Live (l : list T) | Freed.
Definition mem : Type := list blk.
Definition ptr : Type := option (nat * Z).

Definition load (m : mem) (p : ptr) : res T :=
  match p with
  | None => UB
  | Some (b, i) => match nth_error m b with
                   | Some (Live l) => if (i <? 0) || (Z.of_nat (length l) <=? i) then UB else match nth_error l (Z.to_nat i) with Some v => Ok v | None => UB end
                   | _ => UB end
  end.
Definition store (m : mem) (p : ptr) (v : T) : res mem :=
  match p with
  | None => UB
  | Some (b, i) => match nth_error m b with
                   | Some (Live l) => if (i <? 0) || (Z.of_nat (length l) <=? i) then UB else Ok (upd m b (Live (upd l (Z.to_nat i) v)))
                   | _ => UB end
  end.
Definition shift (p : ptr) (k : Z) : ptr := match p with Some (b, i) => Some (b, i + k) | None => None end.

(** slice.zc:4-13 *)
Record slice := Slice { s_data : ptr; s_len : Z }.
Record iter := Iter { it_data : ptr; it_count : Z; it_idx : Z }.
(** 15-24: SliceIter::next *)
Definition next (m : mem) (it : iter) : res (iter * option T) :=
  if it_idx it <? it_count it then
    do v <- load m (shift (it_data it) (it_idx it));
    Ok (Iter (it_data it) (it_count it) ((it_idx it + 1) mod 2 ^ 64), Some v)
  else Ok (it, None).
(** 31-45 *)
Definition new (p : ptr) (len : Z) : slice := Slice p len.
Definition iterator (s : slice) : iter := Iter (s_data s) (s_len s) 0.
(** 47-65 *)
Definition length_ (s : slice) : Z := s_len s.
Definition is_empty (s : slice) : bool := s_len s =? 0.
Definition get (m : mem) (s : slice) (idx : Z) : res (option T) :=
  if s_len s <=? idx then Ok None else do v <- load m (shift (s_data s) idx); Ok (Some v).
(** a for-in loop over a slice: next until there is nothing *)
Fixpoint collect (fuel : nat) (m : mem) (it : iter) : res (list T) :=
  match fuel with
  | O => Fuel
  | S fuel => do '(it, o) <- next m it;
    match o with None => Ok [] | Some v => do r <- collect fuel m it; Ok (v :: r) end
  end.

(** mem.zc:9-11: the block malloc(sizeof(T) * n) gives, filled with anything *)
Definition alloc_n (m : mem) (n : Z) (junk : Z -> T) : mem * ptr :=
  let bytes_ := (sz * n) mod 2 ^ 64 in
  (m ++ [Live (map (fun i => junk (Z.of_nat i)) (seq 0 (Z.to_nat (bytes_ / sz))))], Some (length m, 0)).
(** 5-7, 28-30: calloc(1, sizeof(T)) *)
Definition zalloc (m : mem) : mem * ptr := (m ++ [Live [zero]], Some (length m, 0)).
Definition free_ (m : mem) (p : ptr) : res mem :=
  match p with
  | None => Ok m
  | Some (b, i) => match nth_error m b with Some (Live _) => if i =? 0 then Ok (upd m b Freed) else UB | _ => UB end
  end.
(** 44-48: Box::free: the pointer in the box stays as it is *)
Definition box_free (m : mem) (p : ptr) : res (mem * ptr) :=
  match p with None => Ok (m, None) | Some _ => do m' <- free_ m p; Ok (m', p) end.
(** 40-42 *)
Definition box_is_null (p : ptr) : bool := match p with None => true | _ => false end.
(** 53-55 *)
Fixpoint fill (k : nat) (m : mem) (p : ptr) : res mem :=
  match k with O => Ok m | S k => do m' <- store m p zero; fill k m' (shift p 1) end.
Definition mem_zero (m : mem) (p : ptr) (count : Z) : res mem :=
  fill (Z.to_nat (((sz * count) mod 2 ^ 64) / sz)) m p.
(** 57-59: memcpy, undefined when the regions overlap *)
Definition overlap (p q : ptr) (n : Z) : bool :=
  match p, q with Some (b, i), Some (c, j) => (b =? c)%nat && (0 <? n) && (i <? j + n) && (j <? i + n) | _, _ => false end.
Fixpoint copy (k : nat) (m : mem) (d s : ptr) : res mem :=
  match k with O => Ok m | S k => do v <- load m s; do m' <- store m d v; copy k m' (shift d 1) (shift s 1) end.
Definition mem_copy (m : mem) (d s : ptr) (count : Z) : res mem :=
  let n := ((sz * count) mod 2 ^ 64) / sz in
  if overlap d s n then UB else copy (Z.to_nat n) m d s.
(** 61-65 *)
Definition swap (m : mem) (a b : ptr) : res mem :=
  do tmp <- load m a; do v <- load m b; do m <- store m a v; store m b tmp.
End Mem.
