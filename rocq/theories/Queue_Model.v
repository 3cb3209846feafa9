(** Model of std/queue.zc.  Sizes are [nat] (see Vec_Model); malloc succeeds. *)
From Verif Require Import Common.

Section Queue.
  Context {A : Type}.

  (** std/queue.zc:4-10; a null [data] is the empty buffer. *)
  Record queue := mkq { qdata : buf A; qcap : nat; qhead : nat; qtail : nat; qcount : nat }.

  (** std/queue.zc:13-15 *)
  Definition qnew : queue := mkq [] 0 0 0 0.

  (** std/queue.zc:32-41 and 58-68: copy the ring, oldest item first, to a fresh block *)
  Definition qlinearise (q : queue) (dst : buf A) : res (buf A) :=
    if 0 <? qcount q then
      if qhead q <? qtail q then bcopy (qdata q) (qhead q) dst 0 (qcount q)
      else
        let first_part := qcap q - qhead q in
        let second_part := qtail q in
        do dst <- bcopy (qdata q) (qhead q) dst 0 first_part;
        bcopy (qdata q) 0 dst first_part second_part
    else Ok dst.

  (** std/queue.zc:28-48 *)
  Definition qgrow (q : queue) : res queue :=
    let new_cap := if qcap q =? 0 then 8 else qcap q * 2 in
    do d <- qlinearise q (bnew new_cap);
    Ok (mkq d new_cap 0 (qcount q) (qcount q)).

  (** std/queue.zc:50-71 *)
  Definition qclone (q : queue) : res queue :=
    do d <- qlinearise q (bnew (qcap q));
    Ok (mkq d (qcap q) 0 (qcount q) (qcount q)).

  (** std/queue.zc:73-81 *)
  Definition qpush (q : queue) (x : A) : res queue :=
    do q <- (if qcount q =? qcap q then qgrow q else Ok q);
    do d <- bset (qdata q) (qtail q) x;
    if qcap q =? 0 then UB  (* % 0 *)
    else Ok (mkq d (qcap q) (qhead q) ((qtail q + 1) mod qcap q) (qcount q + 1)).

  (** std/queue.zc:83-93 *)
  Definition qpop (q : queue) : res (queue * option A) :=
    if qcount q =? 0 then Ok (q, None)
    else
      do x <- bget (qdata q) (qhead q);
      if qcap q =? 0 then UB
      else Ok (mkq (qdata q) (qcap q) ((qhead q + 1) mod qcap q) (qtail q) (qcount q - 1), Some x).

  (** std/queue.zc:95-97, 105-107 *)
  Definition qlength (q : queue) : nat := qcount q.
  Definition qis_empty (q : queue) : bool := qcount q =? 0.

  (** std/queue.zc:99-103 *)
  Definition qclear (q : queue) : queue := mkq (qdata q) (qcap q) 0 0 0.

  (** std/queue.zc:17-26 *)
  Definition qfree (q : queue) : queue := qnew.
End Queue.
Arguments queue : clear implicits.
