(** Model of the line editor of the REPL: src/repl/repl.c:524-970 (repl_complete, repl_readline),
    with the key words of 165-170.

    The input is the list of the bytes that repl_read_char will deliver; at its end every read fails.
    The line lives in a heap block [e_buf]: reading a byte that was never written, or reading or
    writing outside the block, is [UB].  [e_size] is the variable buf_size.  Simplifications: a
    line is shorter than 2^30 bytes, memory suffices, what is drawn on the screen is left out,
    isalnum and iscntrl are those of the C locale and take bytes from 128 as other characters. *)
From Verif Require Import Common.

(** 165-170 *)
Definition keywords : list bytes := map bs
  ["fn"; "struct"; "var"; "let"; "def"; "const"; "return"; "if"; "else"; "for"; "while"; "do"; "switch"; "case";
   "default"; "break"; "continue"; "typedef"; "enum"; "union"; "sizeof"; "typeof"; "import"; "include"; "defer";
   "guard"; "match"; "impl"; "trait"; "comptime"; "asm"; "plugin"; "true"; "false"; "null"; "NULL"]%string.
(** 559-562 *)
Definition commands : list bytes := map bs
  [":help"; ":reset"; ":imports"; ":vars"; ":funcs"; ":structs"; ":history"; ":type"; ":time"; ":c"; ":doc"; ":run";
   ":edit"; ":save"; ":load"; ":watch"; ":unwatch"; ":undo"; ":delete"; ":clear"; ":quit"]%string.

Definition isalnum (c : N) : bool :=
  ((48 <=? c) && (c <=? 57) || (65 <=? c) && (c <=? 90) || (97 <=? c) && (c <=? 122))%N.
Definition iscntrl (c : N) : bool := ((c <? 32) || (c =? 127))%N.
(** 527-528 *)
Definition word_char (c : N) : bool := isalnum c || (c =? 95)%N || (c =? 58)%N || (c =? 33)%N.

(** the C string at the start of a block: strlen, strdup, strstr and %s read it *)
Fixpoint c_string (b : buf N) : res bytes :=
  match b with
  | Some c :: r => if (c =? 0)%N then Ok [] else do t <- c_string r; Ok (c :: t)
  | _ => UB
  end.
(** strdup: a fresh block with the string and its NUL *)
Definition dup (s : bytes) : buf N := map Some (s ++ [0%N]).

(** 526-531: the start of the word before [pos] *)
Fixpoint word_start (b : buf N) (start : nat) : res nat :=
  match start with
  | 0 => Ok 0
  | S k => do c <- bget b k; if word_char c then word_start b k else Ok (S k)
  end.
Fixpoint read_from (b : buf N) (i n : nat) : res bytes :=
  match n with 0 => Ok [] | S n' => do c <- bget b i; do t <- read_from b (S i) n'; Ok (c :: t) end.
(** 547-575: how many names start with the prefix, and the last of them *)
Definition count_matches (w : bytes) (names : list bytes) (mc : option bytes * nat) : option bytes * nat :=
  fold_left (fun mc k => if is_prefix w k then (Some k, S (snd mc)) else mc) names mc.
(** repl_complete, 524-582 *)
Definition complete (b : buf N) (pos : nat) : res (option bytes) :=
  do start <- word_start b pos;
  let len := pos - start in
  if len =? 0 then Ok None
  else if 255 <=? len then Ok None
  else
    do w <- read_from b start len;
    let '(m, n) := count_matches w keywords (None, 0) in
    let '(m, n) := (if (nth 0 w 0 =? 58)%N then count_matches w commands (m, n) else (m, n)) in
    if n =? 1 then match m with Some k => Ok (Some (skipn len k)) | None => UB end else Ok None.

(** the local variables of repl_readline, 586-613; search_match_idx is -1 until a search starts: it
    is not read before that *)
Record ed := Ed { e_buf : buf N; e_size : nat; e_len : nat; e_pos : nat; e_hidx : nat; e_saved : option bytes;
                  e_search : bool; e_sbuf : bytes; e_smatch : nat }.

(** 595-604 *)
Fixpoint indent (n : nat) (b : buf N) (size len : nat) : res (buf N * nat * nat) :=
  match n with
  | 0 => Ok (b, size, len)
  | S n' =>
      let '(b, size) := if size - 1 <=? len then (brealloc b (size * 2), size * 2) else (b, size) in
      do b <- bset b len 32%N;
      indent n' b size (S len)
  end.
(** 588-613 *)
Definition init (hist : list bytes) (indent_level : nat) : res ed :=
  do b <- bset (bnew 1024) 0 0%N;
  do '(b, size, len) <- indent (indent_level * 4) b 1024 0;
  do b <- bset b len 0%N;
  Ok (Ed b size len len (length hist) None false [] 0).

(** free(buf); buf = strdup(t); buf_size = strlen(buf) + 1; len = strlen(buf); pos = len *)
Definition load (t : bytes) (s : ed) : ed :=
  Ed (dup t) (length t + 1) (length t) (length t) (e_hidx s) (e_saved s) (e_search s) (e_sbuf s) (e_smatch s).
Definition with_hidx (i : nat) (s : ed) : ed :=
  Ed (e_buf s) (e_size s) (e_len s) (e_pos s) i (e_saved s) (e_search s) (e_sbuf s) (e_smatch s).
Definition with_saved (t : option bytes) (s : ed) : ed :=
  Ed (e_buf s) (e_size s) (e_len s) (e_pos s) (e_hidx s) t (e_search s) (e_sbuf s) (e_smatch s).
Definition with_pos (p : nat) (s : ed) : ed :=
  Ed (e_buf s) (e_size s) (e_len s) p (e_hidx s) (e_saved s) (e_search s) (e_sbuf s) (e_smatch s).
Definition with_text (b : buf N) (size len pos : nat) (s : ed) : ed :=
  Ed b size len pos (e_hidx s) (e_saved s) (e_search s) (e_sbuf s) (e_smatch s).
Definition with_search (m : bool) (t : bytes) (i : nat) (s : ed) : ed :=
  Ed (e_buf s) (e_size s) (e_len s) (e_pos s) (e_hidx s) (e_saved s) m t i.

(** strstr(line, text) != NULL *)
Fixpoint contains (text line : bytes) : bool :=
  is_prefix text line || match line with [] => false | _ :: r => contains text r end.
(** the loop of 787-794: the last entry below [n] that contains the text *)
Fixpoint search_back (hist : list bytes) (text : bytes) (n : nat) : res (option nat) :=
  match n with
  | 0 => Ok None
  | S i => match nth_error hist i with
           | Some l => if contains text l then Ok (Some i) else search_back hist text i
           | None => UB
           end
  end.
(** 796-805 *)
Definition found_entry (hist : list bytes) (i : nat) (s : ed) : res ed :=
  match nth_error hist i with
  | Some l => Ok (with_hidx i (load l (with_search (e_search s) (e_sbuf s) i s)))
  | None => UB
  end.

(** a cursor key, 629-715 *)
Definition escape (hist : list bytes) (a b : N) (s : ed) : res ed :=
  if negb (a =? 91)%N then Ok s
  else if (b =? 65)%N then
    if 0 <? e_hidx s then
      do s <- (if e_hidx s =? length hist
               then do t <- c_string (e_buf s); Ok (with_saved (Some t) s) else Ok s);
      let i := e_hidx s - 1 in
      let s := with_hidx i s in
      if i <? length hist
      then match nth_error hist i with Some l => Ok (load l s) | None => UB end
      else Ok s
    else Ok s
  else if (b =? 66)%N then
    if e_hidx s <? length hist then
      let i := S (e_hidx s) in
      let s := with_hidx i s in
      if i =? length hist
      then Ok (load (match e_saved s with Some t => t | None => [] end) s)
      else match nth_error hist i with Some l => Ok (load l s) | None => UB end
    else Ok s
  else if (b =? 67)%N then Ok (if e_pos s <? e_len s then with_pos (S (e_pos s)) s else s)
  else if (b =? 68)%N then Ok (if 0 <? e_pos s then with_pos (e_pos s - 1) s else s)
  else if (b =? 72)%N then Ok (with_pos 0 s)
  else if (b =? 70)%N then Ok (with_pos (e_len s) s)
  else Ok s.

(** 716-724 *)
Definition backspace (s : ed) : res ed :=
  if 0 <? e_pos s then
    do b <- bcopy (e_buf s) (e_pos s) (e_buf s) (e_pos s - 1) (e_len s - e_pos s + 1);
    Ok (with_text b (e_size s) (e_len s - 1) (e_pos s - 1) s)
  else Ok s.
(** 754-770 *)
Definition tab (s : ed) : res ed :=
  do r <- complete (e_buf s) (e_pos s);
  match r with
  | None => Ok s
  | Some k =>
      let clen := length k in
      if e_len s + clen <? e_size s - 1 then
        do b <- bcopy (e_buf s) (e_pos s) (e_buf s) (e_pos s + clen) (e_len s - e_pos s + 1);
        do b <- bcopy (map Some k) 0 b (e_pos s) clen;
        Ok (with_text b (e_size s) (e_len s + clen) (e_pos s + clen) s)
      else Ok s
  end.
(** Ctrl+R, 771-806 *)
Definition ctrl_r (hist : list bytes) (s : ed) : res ed :=
  let s := if e_search s then s else with_search true [] (length hist) s in
  let n := if length hist <? e_smatch s then length hist else e_smatch s in
  do f <- search_back hist (e_sbuf s) n;
  match f with Some i => found_entry hist i s | None => Ok s end.
(** the keys of search mode that earlier branches leave, 837-890: Ctrl+G and the other characters *)
Definition search_key (hist : list bytes) (c : N) (s : ed) : res ed :=
  if (c =? 7)%N then Ok (with_search false (e_sbuf s) (e_smatch s) s)
  else if negb (iscntrl c) then
    if length (e_sbuf s) <? 255 then
      if 256 <? length (e_sbuf s) + 2 then UB else
      let s := with_search (e_search s) (e_sbuf s ++ [c]) (e_smatch s) s in
      do f <- search_back hist (e_sbuf s) (length hist);
      match f with Some i => found_entry hist i s | None => Ok s end
    else Ok s
  else Ok s.
(** Ctrl+U, 903-911 *)
Definition kill_start (s : ed) : res ed :=
  if 0 <? e_pos s then
    do b <- bcopy (e_buf s) (e_pos s) (e_buf s) 0 (e_len s - e_pos s + 1);
    Ok (with_text b (e_size s) (e_len s - e_pos s) 0 s)
  else Ok s.
(** Ctrl+K, 912-916 *)
Definition kill_end (s : ed) : res ed :=
  do b <- bset (e_buf s) (e_pos s) 0%N;
  Ok (with_text b (e_size s) (e_pos s) (e_pos s) s).
(** 928-939 *)
Definition insert (c : N) (s : ed) : res ed :=
  let '(b, size) := if e_size s - 1 <=? e_len s then (brealloc (e_buf s) (e_size s * 2), e_size s * 2)
                    else (e_buf s, e_size s) in
  do b <- bcopy b (e_pos s) b (e_pos s + 1) (e_len s - e_pos s + 1);
  do b <- bset b (e_pos s) c;
  Ok (with_text b size (S (e_len s)) (S (e_pos s)) s).

(** what repl_readline gives its caller: NULL or a line *)
Inductive out := Eof | Line (l : bytes).
Inductive act := Go (s : ed) | Stop (o : out).
(** a byte that is not ESC, 716-939, in the order of the code *)
Definition key (hist : list bytes) (c : N) (s : ed) : res act :=
  if (c =? 127)%N || (c =? 8)%N then do s <- backspace s; Ok (Go s)
  else if (c =? 13)%N || (c =? 10)%N then do l <- c_string (e_buf s); Ok (Stop (Line l))
  else if (c =? 3)%N then Ok (Stop (Line []))
  else if (c =? 4)%N then Ok (if e_len s =? 0 then Stop Eof else Go s)
  else if (c =? 9)%N then do s <- tab s; Ok (Go s)
  else if (c =? 18)%N then do s <- ctrl_r hist s; Ok (Go s)
  else if e_search s then do s <- search_key hist c s; Ok (Go s)
  else if (c =? 1)%N then Ok (Go (with_pos 0 s))
  else if (c =? 5)%N then Ok (Go (with_pos (e_len s) s))
  else if (c =? 12)%N then Ok (Go s)
  else if (c =? 21)%N then do s <- kill_start s; Ok (Go s)
  else if (c =? 11)%N then do s <- kill_end s; Ok (Go s)
  else if (c =? 14)%N then Ok (Stop (Line (bs ":reset")))
  else if negb (iscntrl c) then do s <- insert c s; Ok (Go s)
  else Ok (Go s).

(** the loop of 621-961; the result comes with the bytes that were not read *)
Fixpoint edit (hist : list bytes) (input : bytes) (s : ed) {struct input} : res (out * bytes) :=
  match input with
  | [] => do l <- c_string (e_buf s); Ok (Line l, [])
  | c :: r =>
      if (c =? 27)%N then
        match r with
        | a :: b :: r' => do s <- escape hist a b s; edit hist r' s
        | _ => do l <- c_string (e_buf s); Ok (Line l, [])
        end
      else
        do a <- key hist c s;
        match a with
        | Go s => edit hist r s
        | Stop o => Ok (o, r)
        end
  end.
(** repl_readline, 584-970 *)
Definition readline (hist : list bytes) (indent_level : nat) (input : bytes) : res (out * bytes) :=
  do s <- init hist indent_level;
  edit hist input s.
