(** Model of std/vec.zc.  [usize] indices are [nat]: the model is for vectors whose
    byte size fits the address space (larger allocations cannot succeed); the
    exception is [with_capacity_wrap] below, where the multiplication is wrapped.
    malloc/realloc are assumed to succeed. *)
From Verif Require Import Common.

Section Vec.
  Context {A : Type}.
  (** memcmp on the representation of two elements returned 0 (vec.zc:220, 273). *)
  Variable rep_eq : A -> A -> bool.

  (** std/vec.zc:5-9 struct Vec<T>.  [data] is the buffer; a null pointer is the
      empty buffer (cap = 0). *)
  Record vec := mkvec { data : buf A; len : nat; cap : nat }.

  (** std/vec.zc:72-74 *)
  Definition vnew : vec := mkvec [] 0 0.

  (** std/vec.zc:76-85 *)
  Definition vwith_capacity (c : nat) : vec :=
    if c =? 0 then mkvec [] 0 0 else mkvec (bnew c) 0 c.

  (** std/vec.zc:87-91 *)
  Definition vgrow (v : vec) : vec :=
    let c := if cap v =? 0 then 8 else cap v * 2 in
    mkvec (brealloc (data v) c) (len v) c.

  (** std/vec.zc:99-101: the doubling loop of grow_to_fit *)
  Fixpoint vfit_loop (fuel c n : nat) : res nat :=
    match fuel with
    | 0 => Fuel
    | S f => if c <? n then vfit_loop f (c * 2) n else Ok c
    end.

  (** std/vec.zc:93-104 *)
  Definition vgrow_to_fit (v : vec) (n : nat) : res vec :=
    if n <=? cap v then Ok v
    else
      do c <- vfit_loop (S n) (if cap v =? 0 then 8 else cap v) n;
      Ok (mkvec (brealloc (data v) c) (len v) c).

  (** std/vec.zc:122-128 *)
  Definition vpush (v : vec) (x : A) : res vec :=
    let v := if cap v <=? len v then vgrow v else v in
    do d <- bset (data v) (len v) x;
    Ok (mkvec d (len v + 1) (cap v)).

  (** std/vec.zc:130-144 *)
  Definition vinsert (v : vec) (i : nat) (x : A) : res vec :=
    if len v <? i then Panic
    else
      let v := if cap v <=? len v then vgrow v else v in
      do d <- (if i <? len v then bcopy (data v) i (data v) (i + 1) (len v - i)
               else Ok (data v));
      do d <- bset d i x;
      Ok (mkvec d (len v + 1) (cap v)).

  (** std/vec.zc:146-153 *)
  Definition vpop (v : vec) : res (vec * A) :=
    if len v =? 0 then Panic
    else
      do x <- bget (data v) (len v - 1);
      Ok (mkvec (data v) (len v - 1) (cap v), x).

  (** std/vec.zc:155-161 *)
  Definition vpop_opt (v : vec) : res (vec * option A) :=
    if len v =? 0 then Ok (v, None)
    else
      do x <- bget (data v) (len v - 1);
      Ok (mkvec (data v) (len v - 1) (cap v), Some x).

  (** std/vec.zc:163-175 *)
  Definition vremove (v : vec) (i : nat) : res (vec * A) :=
    if len v <=? i then Panic
    else
      do x <- bget (data v) i;
      do d <- (if i <? len v - 1 then bcopy (data v) (i + 1) (data v) i (len v - i - 1)
               else Ok (data v));
      Ok (mkvec d (len v - 1) (cap v), x).

  (** std/vec.zc:177-183.  [other] is passed by value; the caller's variable is
      zeroed by the move (codegen_utils.c:903-945), see [Vec_Spec]. *)
  Definition vappend (v o : vec) : res vec :=
    let n := len v + len o in
    do v <- vgrow_to_fit v n;
    do d <- bcopy (data o) 0 (data v) (len v) (len o);
    Ok (mkvec d n (cap v)).

  (** std/vec.zc:185-191 get (and index 193-195) *)
  Definition vget (v : vec) (i : nat) : res A :=
    if len v <=? i then Panic else bget (data v) i.

  (** std/vec.zc:205-211 *)
  Definition vlast (v : vec) : res A :=
    if len v =? 0 then Panic else bget (data v) (len v - 1).

  (** std/vec.zc:241-247 *)
  Definition vfirst (v : vec) : res A :=
    if len v =? 0 then Panic else bget (data v) 0.

  (** std/vec.zc:213-215, 226-228 *)
  Definition vlength (v : vec) : nat := len v.
  Definition vis_empty (v : vec) : bool := len v =? 0.

  (** std/vec.zc:218-223: the loop of contains, [k] = iterations left *)
  Fixpoint vcontains_loop (d : buf A) (x : A) (i k : nat) : res bool :=
    match k with
    | 0 => Ok false
    | S k => do y <- bget d i;
             if rep_eq y x then Ok true else vcontains_loop d x (i + 1) k
    end.
  Definition vcontains (v : vec) (x : A) : res bool :=
    vcontains_loop (data v) x 0 (len v).

  (** std/vec.zc:230-232 *)
  Definition vclear (v : vec) : vec := mkvec (data v) 0 (cap v).

  (** std/vec.zc:234-239 free (also drop, 305-309, and forget, 280-284: same fields) *)
  Definition vfree (v : vec) : vec := mkvec [] 0 0.

  (** std/vec.zc:249-255 *)
  Definition vset (v : vec) (i : nat) (x : A) : res vec :=
    if len v <=? i then Panic
    else do d <- bset (data v) i x; Ok (mkvec d (len v) (cap v)).

  (** std/vec.zc:260-266: the loop of reverse.  [i], [j] are usize; [j] may have
      wrapped to 2^64-1, so they are [N]. *)
  Fixpoint vreverse_loop (fuel : nat) (d : buf A) (i j : N) : res (buf A) :=
    match fuel with
    | 0 => Fuel
    | S f =>
      if (i <? j)%N then
        do x <- bget d (N.to_nat i);
        do y <- (if (j <? N.of_nat (length d))%N then bget d (N.to_nat j) else UB);
        do d <- bset d (N.to_nat i) y;
        do d <- bset d (N.to_nat j) x;
        vreverse_loop f d (i + 1) ((j + (2 ^ 64 - 1)) mod 2 ^ 64)
      else Ok d
    end.

  (** std/vec.zc:257-267; line 259 is [self.len - 1] in unsigned arithmetic *)
  Definition vreverse (v : vec) : res vec :=
    do d <- vreverse_loop (S (len v)) (data v) 0
              ((N.of_nat (len v) + (2 ^ 64 - 1)) mod 2 ^ 64)%N;
    Ok (mkvec d (len v) (cap v)).

  (** std/vec.zc:271-276: the loop of eq *)
  Fixpoint veq_loop (d1 d2 : buf A) (i k : nat) : res bool :=
    match k with
    | 0 => Ok true
    | S k => do x <- bget d1 i;
             do y <- bget d2 i;
             if rep_eq x y then veq_loop d1 d2 (i + 1) k else Ok false
    end.
  (** std/vec.zc:269-277 *)
  Definition veq (v o : vec) : res bool :=
    if negb (len v =? len o) then Ok false else veq_loop (data v) (data o) 0 (len v).

  (** std/vec.zc:291-295: the loop of clone *)
  Fixpoint vclone_loop (src dst : buf A) (i k : nat) : res (buf A) :=
    match k with
    | 0 => Ok dst
    | S k => do x <- bget src i;
             do dst <- bset dst i x;
             vclone_loop src dst (i + 1) k
    end.
  (** std/vec.zc:286-302 *)
  Definition vclone (v : vec) : res vec :=
    if len v =? 0 then Ok (mkvec [] 0 0)
    else do d <- vclone_loop (data v) (bnew (len v)) 0 (len v);
         Ok (mkvec d (len v) (len v)).

  (** std/vec.zc:11-15 struct VecIter; 106-112 Vec.iterator *)
  Record viter := mkviter { it_data : buf A; it_count : nat; it_idx : nat }.
  Definition viterator (v : vec) : viter := mkviter (data v) (len v) 0.
  (** std/vec.zc:42-49 VecIter.next *)
  Definition viter_next (it : viter) : res (viter * option A) :=
    if it_idx it <? it_count it then
      do x <- bget (it_data it) (it_idx it);
      Ok (mkviter (it_data it) (it_count it) (it_idx it + 1), Some x)
    else Ok (it, None).

  (** std/vec.zc:57-64 VecIterRef.next: returns the address of the element
      (modelled as its index) or null. *)
  Definition viter_ref_next (it : viter) : res (viter * option nat) :=
    if it_idx it <? it_count it then
      if it_idx it <? length (it_data it) then
        Ok (mkviter (it_data it) (it_count it) (it_idx it + 1), Some (it_idx it))
      else UB
    else Ok (it, None).
  (** std/vec.zc:26-32 VecIterResult.unwrap *)
  Definition viter_unwrap (p : option nat) : res nat :=
    match p with None => Panic | Some i => Ok i end.

  (** The [for x in v] loop the compiler generates: call next until None,
      collecting the items. *)
  Fixpoint viter_collect (fuel : nat) (it : viter) : res (list A) :=
    match fuel with
    | 0 => Fuel
    | S f =>
      do '(it, o) <- viter_next it;
      match o with
      | None => Ok []
      | Some x => do r <- viter_collect f it; Ok (x :: r)
      end
    end.
  Fixpoint viter_ref_collect (fuel : nat) (it : viter) : res (list A) :=
    match fuel with
    | 0 => Fuel
    | S f =>
      do '(it, o) <- viter_ref_next it;
      match o with
      | None => Ok []
      | Some i => do x <- bget (it_data it) i;
                  do r <- viter_ref_collect f it; Ok (x :: r)
      end
    end.

  (** std/vec.zc:76-85 again, with the multiplication [cap * sizeof(T)] of line 81
      done in 64 bits: the number of elements that fit the memory obtained. *)
  Definition vwith_capacity_wrap (esize c : N) : N * N :=
    (((c * esize) mod 2 ^ 64) / esize, c)%N.
End Vec.
Arguments vec : clear implicits.
Arguments viter : clear implicits.
