(** Model of std/set.zc.  [eqb] is the [==] of line 89, [hash] the FNV-1a hash of the
    bytes of a value (lines 6-16); results hold for every [hash]. *)
From Verif Require Import Common Hash_Model.

Section Set_.
  Context {T : Type} (eqb : T -> T -> bool) (hash : T -> N).

  (** set.zc:18-24; the table is as in Hash_Model, with no value part. *)
  Record zset := mkset { zslots : list (slot T unit); zlen : nat; zcap : nat }.

  (** set.zc:27-29 *)
  Definition set_new : zset := mkset [] 0 0.

  (** set.zc:88-91, 108-109 *)
  Definition find_dec (val : T) (s : slot T unit) : res (option bool) :=
    if negb (socc s) then Ok (Some false)
    else if negb (sdel s) then
      do '(x, _) <- kv_of s;
      Ok (if eqb x val then Some true else None)
    else Ok None.

  (** set.zc:79-99 *)
  Definition set_contains (f : nat) (z : zset) (val : T) : res bool :=
    if zcap z =? 0 then Ok false else
    let idx := home hash (zcap z) val in
    do r <- probe_back (find_dec val) (zslots z) (zcap z) f idx idx;
    match r with
    | Some (_, b) => Ok b
    | None => Ok false
    end.

  (** set.zc:68: stop at a slot that is not live *)
  Definition add_dec (s : slot T unit) : res (option unit) :=
    Ok (if socc s && negb (sdel s) then None else Some tt).

  (** set.zc:65-76 *)
  Definition add_core (f : nat) (z : zset) (val : T) : res (zset * bool) :=
    if zcap z =? 0 then UB (* % 0 *) else
    do '(idx, _) <- probe add_dec (zslots z) (zcap z) f (home hash (zcap z) val);
    Ok (mkset (upd (zslots z) idx (mkslot true false (Some (val, tt)))) (zlen z + 1) (zcap z), true).

  (** set.zc:31-52 *)
  Definition set_resize_with (add : zset -> T -> res (zset * bool)) (z : zset) (new_cap : nat) : res zset :=
    fold_left
      (fun r s =>
         do z' <- r;
         if socc s && negb (sdel s)
         then do '(x, _) <- kv_of s; do '(z', _) <- add z' x; Ok z'
         else Ok z')
      (zslots z) (Ok (mkset (repeat sfree0 new_cap) 0 new_cap)).

  (** set.zc:54-77; [f] bounds the recursion through _resize and the probe loops *)
  Fixpoint set_add (f : nat) (z : zset) (val : T) : res (zset * bool) :=
    match f with
    | 0 => Fuel
    | S f' =>
        do c <- set_contains f z val;
        if (c : bool) then Ok (z, false) else
        do z <- (if 3 * zcap z <=? 4 * zlen z then
                   let new_cap := zcap z * 2 in
                   let new_cap := if new_cap <? 8 then 8 else new_cap in
                   set_resize_with (set_add f') z new_cap
                 else Ok z);
        add_core f z val
    end.

  (** set.zc:101-119 *)
  Definition set_remove (f : nat) (z : zset) (val : T) : res (zset * bool) :=
    if zcap z =? 0 then Ok (z, false) else
    let idx := home hash (zcap z) val in
    do r <- probe_back (find_dec val) (zslots z) (zcap z) f idx idx;
    match r with
    | Some (idx, true) =>
        do s <- slot_at (zslots z) idx;
        Ok (mkset (upd (zslots z) idx (mkslot (socc s) true (skv s))) (zlen z - 1) (zcap z), true)
    | _ => Ok (z, false)
    end.

  (** set.zc:121-127 *)
  Definition set_length (z : zset) : nat := zlen z.
  Definition set_is_empty (z : zset) : bool := zlen z =? 0.

  (** set.zc:129-140 *)
  Definition set_free (z : zset) : zset := set_new.

  (** set.zc:157-163 *)
  Definition set_clear (z : zset) : zset :=
    mkset (map (fun s => mkslot false false (skv s)) (zslots z)) 0 (zcap z).

  (** set.zc:151-156 *)
  Definition set_val_at (z : zset) (idx : nat) : res (option T) :=
    if zcap z <=? idx then Ok None
    else do s <- slot_at (zslots z) idx;
         if negb (socc s) || sdel s then Ok None
         else do '(x, _) <- kv_of s; Ok (Some x).
End Set_.
Arguments zset : clear implicits.
