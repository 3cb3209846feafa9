(** Model of std/map.zc.  [hash] is a parameter: the results hold for every hash
    function; [fnv1a] is the one in the code. *)
From Verif Require Import Common Hash_Model.

Section Map.
  Context {V : Type} (hash : bytes -> N).

  (** map.zc:22-29.  [mstrs] is a ghost counter: key strings allocated by [strdup] and
      not yet freed. *)
  Record hmap := mkm { mslots : list (slot bytes V); mlen : nat; mcap : nat; mstrs : nat }.

  (** map.zc:88-90 *)
  Definition map_new : hmap := mkm [] 0 0 0.

  (** map.zc:92-117.  [put] is the recursive call of line 108.  The old key strings are
      not freed. *)
  Definition resize_with (put : hmap -> bytes -> V -> res hmap) (m : hmap) (new_cap : nat) : res hmap :=
    fold_left
      (fun r s =>
         do m' <- r;
         if socc s && negb (sdel s)
         then do '(k, v) <- kv_of s; put m' k v
         else Ok m')
      (mslots m)
      (Ok (mkm (repeat sfree0 new_cap) 0 new_cap (mstrs m))).

  (** map.zc:130: accept a free slot or a live slot with this key.
      The answer tells whether the slot was occupied. *)
  Definition put_dec (key : bytes) (s : slot bytes V) : res (option bool) :=
    if negb (socc s) then Ok (Some false)
    else if negb (sdel s) then
      do '(k, _) <- kv_of s;
      Ok (if beq_bytes k key then Some true else None)
    else Ok None.

  (** map.zc:126-144, after the load check *)
  Definition put_core (f : nat) (m : hmap) (key : bytes) (val : V) : res hmap :=
    if mcap m =? 0 then UB (* % 0 *) else
    do '(idx, occupied) <- probe (put_dec key) (mslots m) (mcap m) f (home hash (mcap m) key);
    let len := if negb occupied then mlen m + 1 else mlen m in
    (* line 133: deleted[idx] is false for an accepted occupied slot *)
    do '(k, strs) <- (if negb occupied then Ok (key, mstrs m + 1)
                      else do s <- slot_at (mslots m) idx;
                           do '(k, _) <- kv_of s; Ok (k, mstrs m));
    Ok (mkm (upd (mslots m) idx (mkslot true false (Some (k, val)))) len (mcap m) strs).

  (** map.zc:119-145.  [self.len >= self.cap * 0.75] is a comparison of doubles, exact
      for capacities below 2^52: 4 * len >= 3 * cap.  [f] bounds both the recursion
      through _resize and the probe loop. *)
  Fixpoint map_put (f : nat) (m : hmap) (key : bytes) (val : V) : res hmap :=
    match f with
    | 0 => Fuel
    | S f' =>
        do m <- (if 3 * mcap m <=? 4 * mlen m then
                   let new_cap := mcap m * 2 in
                   let new_cap := if new_cap <? 8 then 8 else new_cap in
                   resize_with (map_put f') m new_cap
                 else Ok m);
        put_core f m key val
    end.

  (** map.zc:157-163 *)
  Definition get_dec (key : bytes) (s : slot bytes V) : res (option (option V)) :=
    if negb (socc s) then Ok (Some None)
    else if negb (sdel s) then
      do '(k, v) <- kv_of s;
      Ok (if beq_bytes k key then Some (Some v) else None)
    else Ok None.

  (** map.zc:147-170 *)
  Definition map_get (f : nat) (m : hmap) (key : bytes) : res (option V) :=
    if mcap m =? 0 then Ok None else
    let idx := home hash (mcap m) key in
    do r <- probe_back (get_dec key) (mslots m) (mcap m) f idx idx;
    match r with
    | None => Ok None
    | Some (_, o) => Ok o
    end.

  (** map.zc:172-175 *)
  Definition map_contains (f : nat) (m : hmap) (key : bytes) : res bool :=
    do o <- map_get f m key;
    Ok (match o with Some _ => true | None => false end).

  (** map.zc:184-186: the answer tells whether the key was found *)
  Definition remove_dec (key : bytes) (s : slot bytes V) : res (option bool) :=
    if negb (socc s) then Ok (Some false)
    else if negb (sdel s) then
      do '(k, _) <- kv_of s;
      Ok (if beq_bytes k key then Some true else None)
    else Ok None.

  (** map.zc:177-195.  The key string is freed (dangling: [skv := None]). *)
  Definition map_remove (f : nat) (m : hmap) (key : bytes) : res hmap :=
    if mcap m =? 0 then Ok m else
    do '(idx, found) <- probe (remove_dec key) (mslots m) (mcap m) f (home hash (mcap m) key);
    if (found : bool) then
      do s <- slot_at (mslots m) idx;
      Ok (mkm (upd (mslots m) idx (mkslot (socc s) true None)) (mlen m - 1) (mcap m) (mstrs m - 1))
    else Ok m.

  (** map.zc:197-203 *)
  Definition map_length (m : hmap) : nat := mlen m.
  Definition map_is_empty (m : hmap) : bool := mlen m =? 0.

  (** map.zc:205-223 *)
  Definition map_free (m : hmap) : res hmap :=
    do strs <- fold_left
                 (fun r s => do n <- r;
                             if socc s && negb (sdel s)
                             then do _ <- kv_of s; Ok (n - 1) else Ok n)
                 (mslots m) (Ok (mstrs m));
    Ok (mkm [] 0 0 strs).

  (** map.zc:229-232 *)
  Definition map_is_slot_occupied (m : hmap) (idx : nat) : res bool :=
    if mcap m <=? idx then Ok false
    else do s <- slot_at (mslots m) idx; Ok (socc s && negb (sdel s)).

  (** map.zc:234-239 *)
  Definition map_key_at (m : hmap) (idx : nat) : res (option bytes) :=
    if mcap m <=? idx then Ok None
    else do s <- slot_at (mslots m) idx;
         if negb (socc s) || sdel s then Ok None
         else do '(k, _) <- kv_of s; Ok (Some k).

  (** map.zc:245-254: the iterator shares the arrays of the map *)
  Record miter := mkmi { iter_of : hmap; mi_idx : nat }.
  Definition map_iterator (m : hmap) : miter := mkmi m 0.

  (** map.zc:65-84; line 82 reads [vals[0]] even when the table has no slot. *)
  Fixpoint iter_next (f : nat) (it : miter) : res (miter * option (bytes * V)) :=
    match f with
    | 0 => Fuel
    | S f =>
        if mi_idx it <? mcap (iter_of it) then
          let i := mi_idx it in
          let it := mkmi (iter_of it) (mi_idx it + 1) in
          do s <- slot_at (mslots (iter_of it)) i;
          if socc s && negb (sdel s)
          then do '(k, v) <- kv_of s; Ok (it, Some (k, v))
          else iter_next f it
        else
          do _ <- slot_at (mslots (iter_of it)) 0;
          Ok (it, None)
    end.

  (** [for x in map]: next until none (std/iter protocol used by the compiler) *)
  Fixpoint iter_all (f : nat) (it : miter) : res (list (bytes * V)) :=
    match f with
    | 0 => Fuel
    | S f =>
        do '(it, o) <- iter_next (S f) it;
        match o with
        | None => Ok []
        | Some e => do l <- iter_all f it; Ok (e :: l)
        end
    end.
End Map.
Arguments hmap : clear implicits.
