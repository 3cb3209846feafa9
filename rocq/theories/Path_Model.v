(** Model of std/path.zc on top of the String model. *)
From Verif Require Import Common Vec_Model String_Model.

(** The separator test c == '/' || c == '\\' of path.zc:34, 59, 74, 80, 94, 99, 105 *)
Definition is_sep (c : N) : bool := (c =? ch "/")%N || (c =? 92)%N.

(** path.zc:28-44 join *)
Definition path_join (v : str) (other : bytes) : res str :=
  let base_len := slength v in
  do s <- cread (data v);
  do new_s <- snew s;
  do new_s <-
    (if 0 <? base_len then
       do last <- vget v (base_len - 1);
       if negb (is_sep last) then do sep <- snew (bs "/"); sappend new_s sep else Ok new_s
     else Ok new_s);
  do o <- snew other;
  sappend new_s o.

(** path.zc:51-62: the loop from index [i] down; [Some i]: return from line 57 *)
Fixpoint ext_loop (v : str) (i : nat) : res (option nat) :=
  match i with
  | 0 => Ok None
  | S j =>
    do c <- bget (data v) j;
    if (c =? ch ".")%N then Ok (Some i)
    else if is_sep c then Ok None
    else ext_loop v j
  end.

(** path.zc:47-64 *)
Definition path_extension (v : str) : res (option str) :=
  let len := slength v in
  do r <- ext_loop v len;
  match r with
  | None => Ok None
  | Some i => do e <- ssubstring v (N.of_nat i) (N.of_nat (len - i)); Ok (Some e)
  end.

(** The loops while (end > 0 && p(s[end-1])) end = end - 1: path.zc:74-76, 80-82,
    94-96, 99-101, 105-107 *)
Fixpoint back_while (v : str) (p : N -> bool) (e : nat) : res nat :=
  match e with
  | 0 => Ok 0
  | S j => do c <- bget (data v) j; if p c then back_while v p j else Ok e
  end.

(** path.zc:66-85 *)
Definition path_file_name (v : str) : res (option str) :=
  let len := slength v in
  if len =? 0 then Ok None
  else
    do e <- back_while v is_sep len;
    if e =? 0 then Ok None
    else
      do start <- back_while v (fun c => negb (is_sep c)) e;
      do s <- ssubstring v (N.of_nat start) (N.of_nat (e - start));
      Ok (Some s).

(** path.zc:87-116 *)
Definition path_parent (v : str) : res (option str) :=
  let len := slength v in
  if len =? 0 then Ok None
  else
    do e <- back_while v is_sep len;
    do e <- back_while v (fun c => negb (is_sep c)) e;
    if e =? 0 then Ok None
    else
      do e <- back_while v is_sep e;
      if e =? 0 then do s <- snew (bs "/"); Ok (Some s)
      else do s <- ssubstring v 0 (N.of_nat e); Ok (Some s).
