(** Model of std/encoding/base64.zc. *)
From Verif Require Import Common Vec_Model String_Model.

(** std/encoding/base64.zc:11 *)
Definition b64_table : bytes :=
  bs "ABCDEFGHIJKLMNOPQRSTUVWXYZabcdefghijklmnopqrstuvwxyz0123456789+/".

(** table[c]; reading outside the literal is undefined *)
Definition tbl (c : N) : res N :=
  match nth_error b64_table (N.to_nat c) with Some x => Ok x | None => UB end.
(** data[i] *)
Definition dat (data : bytes) (i : nat) : res N :=
  match nth_error data i with Some x => Ok x | None => UB end.

(** (triple >> k) & 0x3F *)
Definition sextet (triple k : N) : N := N.land (N.shiftr triple k) 0x3F.

(** std/encoding/base64.zc:19-82.  u32 arithmetic: [triple] stays below 2^24. *)
Fixpoint b64_loop (fuel : nat) (data : bytes) (out : str) (i : nat) : res str :=
  match fuel with
  | 0 => Fuel
  | S f =>
    if i <? length data then
      do a <- dat data i;
      if i + 1 <? length data then
        do b <- dat data (i + 1);
        if i + 2 <? length data then
          do c <- dat data (i + 2);
          let triple := N.lor (N.lor (N.shiftl a 16) (N.shiftl b 8)) c in
          do c1 <- tbl (sextet triple 18);
          do c2 <- tbl (sextet triple 12);
          do c3 <- tbl (sextet triple 6);
          do c4 <- tbl (sextet triple 0);
          do out <- sappend_c out [c1; c2; c3; c4; 0%N];
          b64_loop f data out (i + 3)
        else
          let triple := N.lor (N.shiftl a 16) (N.shiftl b 8) in
          do c1 <- tbl (sextet triple 18);
          do c2 <- tbl (sextet triple 12);
          do c3 <- tbl (sextet triple 6);
          do out <- sappend_c out [c1; c2; c3; ch "="; 0%N];
          b64_loop f data out (i + 2)
      else
        let triple := N.shiftl a 16 in
        do c1 <- tbl (sextet triple 18);
        do c2 <- tbl (sextet triple 12);
        do out <- sappend_c out [c1; c2; ch "="; ch "="; 0%N];
        b64_loop f data out (i + 1)
    else Ok out
  end.

(** std/encoding/base64.zc:10-85; [data] is the memory read, its length is [len] *)
Definition b64_encode (data : bytes) : res str :=
  do out <- snew [];
  do out <- sreserve out (4 * ((length data + 2) / 3));
  b64_loop (S (length data)) data out 0.
