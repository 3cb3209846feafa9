(** Model of std/string.zc on top of the Vec model.  A [char] is a byte value
    ([N] below 256).  A [char*] argument is the list of bytes in memory at that
    address; the C functions called on it see it up to the first NUL ([cstr]).
    Strings are assumed shorter than 2^31 bytes: the counters of the loops in new,
    append and append_c are C ints, and ends_with casts an offset to int (line 163). *)
From Verif Require Import Common Vec_Model.

(** std/string.zc:5-7 *)
Definition str := vec N.

(** The push loops: std/string.zc:14-16, 63-65, 74-76 *)
Fixpoint push_all (v : str) (s : bytes) : res str :=
  match s with
  | [] => Ok v
  | c :: s => do v <- vpush v c; push_all v s
  end.

(** std/string.zc:10-28 new (30-32 from) *)
Definition snew (s : bytes) : res str :=
  do v <- push_all vnew (cstr s); vpush v 0%N.

(** What a C library function reads at c_str() (34-36): the bytes up to the first
    NUL; running past the buffer or into uninitialised bytes is undefined. *)
Fixpoint cread (d : buf N) : res bytes :=
  match d with
  | Some c :: d => if (c =? 0)%N then Ok [] else do r <- cread d; Ok (c :: r)
  | _ => UB
  end.

(** std/string.zc:48-50, 59-61, 70-72: drop the terminator *)
Definition drop_nul (v : str) : str :=
  if 0 <? len v then mkvec (data v) (len v - 1) (cap v) else v.

(** std/string.zc:53-55, [k] iterations left *)
Fixpoint sappend_loop (v o : str) (i k : nat) : res str :=
  match k with
  | 0 => Ok v
  | S k => do c <- vget o i; do v <- vpush v c; sappend_loop v o (i + 1) k
  end.
(** std/string.zc:46-56, [other] a different string *)
Definition sappend (v o : str) : res str :=
  sappend_loop (drop_nul v) o 0 (len o).

(** std/string.zc:46-56 when [other] points to [self]: lines 52 and 54 then read the
    vector being changed. *)
Fixpoint sappend_self_loop (v : str) (i k : nat) : res str :=
  match k with
  | 0 => Ok v
  | S k => do c <- vget v i; do v <- vpush v c; sappend_self_loop v (i + 1) k
  end.
Definition sappend_self (v : str) : res str :=
  let v := drop_nul v in sappend_self_loop v 0 (len v).

(** std/string.zc:58-67 append_c (and 69-78 append_c_ptr) *)
Definition sappend_c (v : str) (s : bytes) : res str :=
  do v <- push_all (drop_nul v) (cstr s); vpush v 0%N.

(** std/string.zc:80-90.  [other] may be [self]: new_s is a fresh copy. *)
Definition sadd (v o : str) : res str :=
  do s <- cread (data v);
  do n <- snew s;
  sappend n o.

(** std/string.zc:92-95, 97-100.  strcmp is modelled as reading both strings
    completely (it may stop earlier) and comparing. *)
Definition s_eq (v o : str) : res bool :=
  do a <- cread (data v); do b <- cread (data o); Ok (beq_bytes a b).
Definition seq_str (v : str) (s : bytes) : res bool :=
  do a <- cread (data v); Ok (beq_bytes a (cstr s)).

(** std/string.zc:102-105 *)
Definition slength (v : str) : nat := if len v =? 0 then 0 else len v - 1.

(** vec.get with a usize index that may be far out of range *)
Definition vgetN (v : str) (i : N) : res N :=
  if (N.of_nat (len v) <=? i)%N then Panic else bget (data v) (N.to_nat i).

(** std/string.zc:112-114; [start + i] wraps at 2^64 *)
Fixpoint ssub_loop (fuel : nat) (out self : str) (start n i : N) : res str :=
  match fuel with
  | 0 => Fuel
  | S f =>
    if (i <? n)%N then
      do c <- vgetN self ((start + i) mod 2 ^ 64)%N;
      do out <- vpush out c;
      ssub_loop f out self start n (i + 1)%N
    else Ok out
  end.
(** std/string.zc:107-123; [start + len] wraps at 2^64.  The loop cannot run more
    than [vec.len + 1] times without leaving the vector. *)
Definition ssubstring (v : str) (start n : N) : res str :=
  if (N.of_nat (slength v) <? (start + n) mod 2 ^ 64)%N then Panic
  else
    do out <- ssub_loop (len v + 2) vnew v start n 0%N;
    vpush out 0%N.

(** std/string.zc:127-131 *)
Fixpoint sfind_loop (v : str) (c : N) (i k : nat) : res (option nat) :=
  match k with
  | 0 => Ok None
  | S k => do x <- vget v i;
           if (x =? c)%N then Ok (Some i) else sfind_loop v c (i + 1) k
  end.
(** std/string.zc:125-133 *)
Definition sfind (v : str) (c : N) : res (option nat) := sfind_loop v c 0 (slength v).

(** std/string.zc:144-150 *)
Definition sis_empty (v : str) : bool := slength v =? 0.
Definition scontains (v : str) (c : N) : res bool :=
  do o <- sfind v c; Ok (match o with Some _ => true | None => false end).

(** std/string.zc:152-157.  strncmp compares at most plen bytes. *)
Definition sstarts_with (v : str) (p : bytes) : res bool :=
  if slength v <? length (cstr p) then Ok false
  else do a <- cread (data v); Ok (beq_bytes (firstn (length (cstr p)) a) (cstr p)).

(** std/string.zc:159-166 *)
Definition sends_with (v : str) (p : bytes) : res bool :=
  if slength v <? length (cstr p) then Ok false
  else do a <- cread (skipn (slength v - length (cstr p)) (data v));
       Ok (beq_bytes a (cstr p)).

(** std/string.zc:168-170 *)
Definition sreserve (v : str) (n : nat) : res str := vgrow_to_fit v (n + 1).

(** std/string.zc:176-183.  [(int)first_byte] may be negative; the masks only look at
    the low 8 bits. *)
Definition utf8_seq_len (b : N) : nat :=
  if (N.land b 0x80 =? 0)%N then 1
  else if (N.land b 0xE0 =? 0xC0)%N then 2
  else if (N.land b 0xF0 =? 0xE0)%N then 3
  else if (N.land b 0xF8 =? 0xF0)%N then 4
  else 1.

(** std/string.zc:189-193 *)
Fixpoint utf8_len_loop (fuel : nat) (v : str) (i count : nat) : res nat :=
  match fuel with
  | 0 => Fuel
  | S f =>
    if i <? slength v then
      do c <- vget v i; utf8_len_loop f v (i + utf8_seq_len c) (count + 1)
    else Ok count
  end.
(** std/string.zc:185-195 *)
Definition sutf8_len (v : str) : res nat := utf8_len_loop (S (slength v)) v 0 0.

(** std/string.zc:201-212 *)
Fixpoint utf8_at_loop (fuel : nat) (v : str) (idx i count : nat) : res str :=
  match fuel with
  | 0 => Fuel
  | S f =>
    if i <? slength v then
      do c <- vget v i;
      if count =? idx then ssubstring v (N.of_nat i) (N.of_nat (utf8_seq_len c))
      else utf8_at_loop f v idx (i + utf8_seq_len c) (count + 1)
    else snew []
  end.
(** std/string.zc:197-213 *)
Definition sutf8_at (v : str) (idx : nat) : res str :=
  utf8_at_loop (S (slength v)) v idx 0 0.

(** std/string.zc:226-251.  Result: None if the start was never reached, else
    (byte_start, byte_len).  [found] carries byte_start once found_start is set. *)
Fixpoint utf8_substr_loop (fuel : nat) (v : str) (start n : nat)
    (i count : nat) (found : option nat) (blen : nat) : res (option (nat * nat)) :=
  match fuel with
  | 0 => Fuel
  | S f =>
    if i <? slength v then
      match found with
      | None =>
        if count =? start then
          (* byte_start = i; count = 0; then the collecting part *)
          if 0 <? n then
            do c <- vget v i;
            utf8_substr_loop f v start n (i + utf8_seq_len c) 1 (Some i) (blen + utf8_seq_len c)
          else Ok (Some (i, blen))
        else
          do c <- vget v i;
          utf8_substr_loop f v start n (i + utf8_seq_len c) (count + 1) None blen
      | Some b =>
        if count <? n then
          do c <- vget v i;
          utf8_substr_loop f v start n (i + utf8_seq_len c) (count + 1) (Some b)
                           (blen + utf8_seq_len c)
        else Ok (Some (b, blen))
      end
    else Ok (match found with None => None | Some b => Some (b, blen) end)
  end.
(** std/string.zc:215-256 *)
Definition sutf8_substr (v : str) (start n : nat) : res str :=
  if n =? 0 then snew []
  else
    do o <- utf8_substr_loop (S (slength v)) v start n 0 0 None 0;
    match o with
    | None => snew []
    | Some (b, l) => ssubstring v (N.of_nat b) (N.of_nat l)
    end.

(** std/string.zc:265-277, [k] iterations left; the parts in order *)
Fixpoint ssplit_loop (v : str) (d : N) (start i k : nat) : res (list str) :=
  match k with
  | 0 => if start <=? slength v then
           do p <- ssubstring v (N.of_nat start) (N.of_nat (slength v - start)); Ok [p]
         else Ok []
  | S k =>
    do c <- vget v i;
    if (c =? d)%N then
      do p <- ssubstring v (N.of_nat start) (N.of_nat (i - start));
      do r <- ssplit_loop v d (i + 1) (i + 1) k;
      Ok (p :: r)
    else ssplit_loop v d start (i + 1) k
  end.
(** std/string.zc:257-280 *)
Definition ssplit (v : str) (d : N) : res (list str) :=
  if slength v =? 0 then Ok [] else ssplit_loop v d 0 0 (slength v).

(** std/string.zc:290, 303: the characters trim keeps are those for which this is false *)
Definition trim_char (c : N) : bool :=
  ((c =? ch " ") || (c =? 9) || (c =? 10) || (c =? 13))%N.
(** std/string.zc:288-294, [k] = len - start *)
Fixpoint trim_start (v : str) (start k : nat) : res nat :=
  match k with
  | 0 => Ok start
  | S k => do c <- vget v start;
           if trim_char c then trim_start v (start + 1) k else Ok start
  end.
(** std/string.zc:301-307, [k] = end - start *)
Fixpoint trim_end (v : str) (stop k : nat) : res nat :=
  match k with
  | 0 => Ok stop
  | S k => do c <- vget v (stop - 1);
           if trim_char c then trim_end v (stop - 1) k else Ok stop
  end.
(** std/string.zc:282-310 *)
Definition strim (v : str) : res str :=
  let n := slength v in
  do start <- trim_start v 0 n;
  if start =? n then snew []
  else
    do stop <- trim_end v n (n - start);
    ssubstring v (N.of_nat start) (N.of_nat (stop - start)).

(** std/string.zc:326-331 *)
Fixpoint match_at (v : str) (t : bytes) (i : nat) : res bool :=
  match t with
  | [] => Ok true
  | c :: t => do x <- vget v i;
              if (x =? c)%N then match_at v t (i + 1) else Ok false
  end.
(** std/string.zc:321-349 *)
Fixpoint sreplace_loop (fuel : nat) (v : str) (t r : bytes) (out : str) (i : nat) : res str :=
  match fuel with
  | 0 => Fuel
  | S f =>
    if i <? slength v then
      do m <- (if i + length t <=? slength v then match_at v t i else Ok false);
      if m then
        do rs <- snew r;
        do out <- sappend out rs;
        sreplace_loop f v t r out (i + length t)
      else
        do c <- vget v i;
        do tmp <- vpush vnew c;
        do tmp <- vpush tmp 0%N;
        do s <- cread (data tmp);
        do cs <- snew s;
        do out <- sappend out cs;
        sreplace_loop f v t r out (i + 1)
    else Ok out
  end.
(** std/string.zc:312-351 *)
Definition sreplace (v : str) (target repl : bytes) : res str :=
  let t := cstr target in
  if length t =? 0 then ssubstring v 0%N (N.of_nat (slength v))
  else
    do out <- snew [];
    sreplace_loop (S (slength v)) v t repl out 0.
