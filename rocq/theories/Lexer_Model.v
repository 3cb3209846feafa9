(** Model of the lexer, src/lexer/token.c.

    The source is the list of its bytes, none of them NUL; the terminating NUL is the
    end of the list.  Reading the terminator gives 0 and is fine, reading any byte
    after it is undefined behaviour ([UB]).  A chain such as
    [s[0] == 'a' && s[1] == 'b'] is [is_prefix "ab"]: both stop at the first
    mismatch, so neither reads past the terminator.  Positions, lines and columns are
    unbounded (they are [int]; a source of 2^31 bytes would be needed to overflow).
    The <ctype.h> predicates are those of the C locale; bytes 128..255 are in no class
    (what glibc answers for the negative [char] passed to it). *)
From Verif Require Import Common.
Local Open Scope N_scope.

(** zprep.h:28-85 *)
Inductive tokty :=
| TOK_EOF | TOK_IDENT | TOK_INT | TOK_FLOAT | TOK_STRING | TOK_FSTRING | TOK_RAW_STRING | TOK_CHAR
| TOK_LPAREN | TOK_RPAREN | TOK_LBRACE | TOK_RBRACE | TOK_LBRACKET | TOK_RBRACKET | TOK_LANGLE | TOK_RANGLE
| TOK_COMMA | TOK_COLON | TOK_SEMICOLON | TOK_OP | TOK_AT | TOK_DOTDOT | TOK_DOTDOT_EQ | TOK_DOTDOT_LT
| TOK_ARROW | TOK_PIPE | TOK_TEST | TOK_ASSERT | TOK_SIZEOF | TOK_DEF | TOK_DEFER | TOK_AUTOFREE
| TOK_QUESTION | TOK_USE | TOK_QQ | TOK_QQ_EQ | TOK_Q_DOT | TOK_DCOLON | TOK_TRAIT | TOK_IMPL | TOK_AND
| TOK_OR | TOK_FOR | TOK_COMPTIME | TOK_ELLIPSIS | TOK_UNION | TOK_ASM | TOK_VOLATILE | TOK_ASYNC | TOK_AWAIT
| TOK_PREPROC | TOK_ALIAS | TOK_COMMENT | TOK_OPAQUE | TOK_UNKNOWN.

(** zprep.h Token: type, start (as an offset into the source), len, line, col *)
Record token := Tok { tk : tokty; tpos : nat; tlen : nat; tline : nat; tcol : nat }.

(** zprep.h Lexer *)
Record lexer := Lex { lsrc : bytes; lpos : nat; lline : nat; lcol : nat; lemit : bool }.

(** token.c:4-11 *)
Definition lexer_init (src : bytes) : lexer := Lex src 0 1 1 false.

(** <ctype.h>, C locale *)
Definition isspace (c : N) : bool := (c =? 32) || ((9 <=? c) && (c <=? 13)).
Definition isdigit (c : N) : bool := (48 <=? c) && (c <=? 57).
Definition isalpha (c : N) : bool := ((65 <=? c) && (c <=? 90)) || ((97 <=? c) && (c <=? 122)).
Definition isalnum (c : N) : bool := isalpha c || isdigit c.
Definition isxdigit (c : N) : bool :=
  isdigit c || ((65 <=? c) && (c <=? 70)) || ((97 <=? c) && (c <=? 102)).

(** token.c:13-16, 18-21 *)
Definition is_ident_start (c : N) : bool := isalpha c || (c =? 95).
Definition is_ident_char (c : N) : bool := isalnum c || (c =? 95).

(** [while (p(s[len])) len++], for a [p] that rejects the terminator *)
Fixpoint span (p : N -> bool) (s : bytes) : nat :=
  match s with
  | c :: t => if p c then S (span p t) else 0%nat
  | [] => 0%nat
  end.

(** One character of the line/column update, token.c:31-39, 113-121, 277-285 *)
Definition step_line (c : N) (line : nat) : nat := if c =? 10 then S line else line.
Definition step_col (c : N) (col : nat) : nat := if c =? 10 then 1%nat else S col.
Fixpoint adv_line (t : bytes) (line : nat) : nat :=
  match t with [] => line | c :: t => adv_line t (step_line c line) end.
Fixpoint adv_col (t : bytes) (col : nat) : nat :=
  match t with [] => col | c :: t => adv_col t (step_col c col) end.

(** token.c:55-67: the length of a directive and the lines its continuations add *)
Fixpoint preproc_len (s : bytes) : nat :=
  match s with
  | [] => 0%nat
  | c :: t =>
    if c =? 10 then 0%nat
    else if c =? 92 then
      match t with
      | d :: t' => if d =? 10 then S (S (preproc_len t')) else S (preproc_len t)
      | [] => 1%nat
      end
    else S (preproc_len t)
  end.
Fixpoint preproc_lines (s : bytes) : nat :=
  match s with
  | [] => 0%nat
  | c :: t =>
    if c =? 10 then 0%nat
    else if c =? 92 then
      match t with
      | d :: t' => if d =? 10 then S (preproc_lines t') else preproc_lines t
      | [] => 0%nat
      end
    else preproc_lines t
  end.

(** token.c:102-125: bytes of a block comment after its opening, up to but without
    the closing; whether the closing was found *)
Fixpoint block_body (s : bytes) : nat :=
  match s with
  | [] => 0%nat
  | _ :: t => if is_prefix (bs "*/") s then 0%nat else S (block_body t)
  end.

(** token.c:249-265, 450-466, not is_multi: bytes up to the closing quote or the end.
    A backslash makes [len] jump two bytes; if it was the last byte the next test of
    [s[len]] reads past the terminator. *)
Fixpoint quoted (s : bytes) : res nat :=
  match s with
  | [] => Ok 0%nat
  | c :: t =>
    if c =? 34 then Ok 0%nat
    else if c =? 92 then
      match t with
      | [] => UB
      | _ :: t' => do n <- quoted t'; Ok (S (S n))
      end
    else do n <- quoted t; Ok (S n)
  end.

(** The same loops when is_multi (249-265, 299-318, 450-466): up to the triple quote *)
Fixpoint tripled (s : bytes) : nat :=
  match s with
  | [] => 0%nat
  | _ :: t => if is_prefix [34; 34; 34] s then 0%nat else S (tripled t)
  end.

(** token.c:299-318, not is_multi: raw strings *)
Fixpoint raw_quoted (quote : N) (s : bytes) : nat :=
  match s with
  | [] => 0%nat
  | c :: t =>
    if c =? quote then 0%nat
    else if c =? 92 then
      match t with
      | d :: t' => if d =? quote then S (S (raw_quoted quote t')) else S (raw_quoted quote t)
      | [] => 1%nat
      end
    else S (raw_quoted quote t)
  end.

(** token.c:266-273, 319-326, 467-474: add the closing delimiter if it is there.
    [len] is the index reached by the loop. *)
Definition close_len (multi : bool) (quote : N) (s : bytes) (len : nat) : nat :=
  let r := skipn len s in
  if multi && is_prefix [34; 34; 34] r then (len + 3)%nat
  else if negb multi && is_prefix [quote] r then (len + 1)%nat
  else len.

(** token.c:245-289 (prefix length 1) and 445-490 (prefix length 0): length of a string
    whose opening quote is at index [k] *)
Definition string_len (k : nat) (s : bytes) : res nat :=
  let multi := is_prefix [34; 34; 34] (skipn k s) in
  let len := if multi then (k + 3)%nat else (k + 1)%nat in
  do n <- (if multi then Ok (tripled (skipn len s)) else quoted (skipn len s));
  Ok (close_len multi 34 s (len + n)).

(** token.c:294-326: length of a raw string, [quote] at index 1 *)
Definition raw_len (quote : N) (s : bytes) : nat :=
  let multi := (quote =? 34) && is_prefix [34; 34; 34] (skipn 1 s) in
  let len := if multi then 4%nat else 2%nat in
  let n := if multi then tripled (skipn len s) else raw_quoted quote (skipn len s) in
  close_len multi quote s (len + n).

(** token.c:148-223: the keywords, with [len] the length of the word *)
Definition keyword (w : bytes) : option tokty :=
  if beq_bytes w (bs "test") then Some TOK_TEST
  else if beq_bytes w (bs "assert") then Some TOK_ASSERT
  else if beq_bytes w (bs "sizeof") then Some TOK_SIZEOF
  else if beq_bytes w (bs "defer") then Some TOK_DEFER
  else if beq_bytes w (bs "def") then Some TOK_DEF
  else if beq_bytes w (bs "trait") then Some TOK_TRAIT
  else if beq_bytes w (bs "impl") then Some TOK_IMPL
  else if beq_bytes w (bs "autofree") then Some TOK_AUTOFREE
  else if beq_bytes w (bs "alias") then Some TOK_ALIAS
  else if beq_bytes w (bs "use") then Some TOK_USE
  else if beq_bytes w (bs "comptime") then Some TOK_COMPTIME
  else if beq_bytes w (bs "union") then Some TOK_UNION
  else if beq_bytes w (bs "asm") then Some TOK_ASM
  else if beq_bytes w (bs "volatile") then Some TOK_VOLATILE
  else if beq_bytes w (bs "async") then Some TOK_ASYNC
  else if beq_bytes w (bs "await") then Some TOK_AWAIT
  else if beq_bytes w (bs "and") then Some TOK_AND
  else if beq_bytes w (bs "or") then Some TOK_OR
  else if beq_bytes w (bs "opaque") then Some TOK_OPAQUE
  else None.

(** token.c:419-425, 432-438: a suffix of identifier characters *)
Definition suffix_len (s : bytes) (len : nat) : nat :=
  match skipn len s with
  | c :: _ => if is_ident_start c then (len + span is_ident_char (skipn len s))%nat else len
  | [] => len
  end.

(** token.c:390-401: an optional fraction at [len]; new length, whether it is there *)
Definition fraction (s : bytes) (len : nat) : nat * bool :=
  let r := skipn len s in
  if is_prefix (bs ".") r && negb (is_prefix (bs "..") r)
  then ((len + 1 + span isdigit (skipn (len + 1) s))%nat, true)
  else (len, false).

(** token.c:403-415: an optional exponent at [len] *)
Definition exponent (s : bytes) (len : nat) : nat * bool :=
  match skipn len s with
  | c :: _ =>
    if (c =? 101) || (c =? 69) then
      let len := (len + 1)%nat in
      let r := skipn len s in
      let len := if is_prefix (bs "+") r || is_prefix (bs "-") r then (len + 1)%nat else len in
      ((len + span isdigit (skipn len s))%nat, true)
    else (len, false)
  | [] => (len, false)
  end.

(** token.c:344-443 *)
Definition number_len (s : bytes) : tokty * nat :=
  if is_prefix (bs "0x") s || is_prefix (bs "0X") s
  then (TOK_INT, suffix_len s (2 + span isxdigit (skipn 2 s)))
  else if is_prefix (bs "0b") s || is_prefix (bs "0B") s
  then (TOK_INT, suffix_len s (2 + span (fun c => (c =? 48)%N || (c =? 49)%N) (skipn 2 s)))
  else if is_prefix (bs "0o") s || is_prefix (bs "0O") s
  then (TOK_INT, suffix_len s (2 + span (fun c => (48 <=? c)%N && (c <=? 55)%N) (skipn 2 s)))
  else
    let (len1, f1) := fraction s (span isdigit s) in
    let (len2, f2) := exponent s len1 in
    ((if f1 || f2 then TOK_FLOAT else TOK_INT), suffix_len s len2).

(** token.c:492-513: a character literal *)
Definition char_len (s : bytes) : res nat :=
  match s with
  | _ :: rest =>
    match rest with
    | [] => UB (* len = 2, s[2] is past the terminator *)
    | c :: t =>
      if c =? 92 then
        match t with
        | [] => UB (* len = 3, s[3] is past the terminator *)
        | _ :: t' => Ok (if is_prefix [39] t' then 4%nat else 3%nat)
        end
      else Ok (if is_prefix [39] t then 3%nat else 2%nat)
    end
  | [] => UB
  end.

(** token.c:515-643; strchr never sees the terminator here *)
Definition operator (s : bytes) : tokty * nat :=
  if is_prefix (bs "?.") s then (TOK_Q_DOT, 2%nat)
  else if is_prefix (bs "??") s then
    if is_prefix (bs "??=") s then (TOK_QQ_EQ, 3%nat) else (TOK_QQ, 2%nat)
  else if is_prefix (bs "?") s then (TOK_QUESTION, 1%nat)
  else if is_prefix (bs "|>") s then (TOK_PIPE, 2%nat)
  else if is_prefix (bs "::") s then (TOK_DCOLON, 2%nat)
  else if is_prefix (bs "...") s then (TOK_ELLIPSIS, 3%nat)
  else if is_prefix (bs "..") s then
    if is_prefix (bs "..=") s then (TOK_DOTDOT_EQ, 3%nat)
    else if is_prefix (bs "..<") s then (TOK_DOTDOT_LT, 3%nat)
    else (TOK_DOTDOT, 2%nat)
  else if is_prefix (bs "->") s || is_prefix (bs "=>") s then (TOK_ARROW, 2%nat)
  else if is_prefix (bs "<<") s || is_prefix (bs ">>") s then
    if is_prefix (bs "<<=") s || is_prefix (bs ">>=") s then (TOK_OP, 3%nat) else (TOK_OP, 2%nat)
  else if is_prefix (bs "&&") s || is_prefix (bs "||") s || is_prefix (bs "++") s || is_prefix (bs "--") s
  then (TOK_OP, 2%nat)
  else if is_prefix (bs "=") (skipn 1 s) && existsb (fun c => is_prefix [c] s) (bs "=!<>+-*/%|&^")
  then (TOK_OP, 2%nat)
  else
    (match s with
     | c :: _ =>
       if c =? 40 then TOK_LPAREN
       else if c =? 41 then TOK_RPAREN
       else if c =? 123 then TOK_LBRACE
       else if c =? 125 then TOK_RBRACE
       else if c =? 91 then TOK_LBRACKET
       else if c =? 93 then TOK_RBRACKET
       else if c =? 60 then TOK_LANGLE
       else if c =? 62 then TOK_RANGLE
       else if c =? 44 then TOK_COMMA
       else if c =? 58 then TOK_COLON
       else if c =? 59 then TOK_SEMICOLON
       else if c =? 64 then TOK_AT
       else TOK_OP
     | [] => TOK_OP
     end, 1%nat).

(** How a token moves the line and the column *)
Inductive motion :=
| MCol        (* l->col += len *)
| MText       (* the loop over the text, 275-286, 328-339, 476-487 *)
| MLines (n : nat). (* directives: l->line++ per continuation, column untouched *)

(** token.c:52-71 and 136-647: the token at [s], which starts neither with a space nor
    with a comment and is not empty *)
Definition lex_token (s : bytes) : res (tokty * nat * motion) :=
  match s with
  | [] => UB
  | c :: _ =>
    if c =? 35 then Ok (TOK_PREPROC, preproc_len s, MLines (preproc_lines s))
    else
      let w := firstn (span is_ident_char s) s in
      let fstr := is_prefix [102; 34] s in
      let rstr := is_prefix [114; 34] s || is_prefix [114; 39] s in
      if is_ident_start c && match keyword w with Some _ => true | None => negb (fstr || rstr) end
      then Ok (match keyword w with Some t => t | None => TOK_IDENT end, length w, MCol)
      else if fstr then do n <- string_len 1 s; Ok (TOK_FSTRING, n, MText)
      else if rstr then Ok (TOK_RAW_STRING, raw_len (nth 1 s 0) s, MText)
      else if isdigit c then let (ty, n) := number_len s in Ok (ty, n, MCol)
      else if c =? 34 then do n <- string_len 0 s; Ok (TOK_STRING, n, MText)
      else if c =? 39 then do n <- char_len s; Ok (TOK_CHAR, n, MCol)
      else let (ty, n) := operator s in Ok (ty, n, MCol)
  end.

Definition move_line (m : motion) (text : bytes) (line : nat) : nat :=
  match m with MCol => line | MText => adv_line text line | MLines n => (line + n)%nat end.
Definition move_col (m : motion) (text : bytes) (col : nat) : nat :=
  match m with MCol => (col + length text)%nat | MText => adv_col text col | MLines _ => col end.

(** token.c:23-648.  The recursive calls after comments are bounded by [fuel]. *)
Fixpoint lexer_next_f (fuel : nat) (l : lexer) : res (token * lexer) :=
  match fuel with
  | O => Fuel
  | S fuel =>
    let s0 := skipn (lpos l) (lsrc l) in
    let n := span isspace s0 in
    let ws := firstn n s0 in
    let pos := (lpos l + n)%nat in
    let line := adv_line ws (lline l) in
    let col := adv_col ws (lcol l) in
    let s := skipn n s0 in
    match s with
    | [] => Ok (Tok TOK_EOF pos 0 line col, Lex (lsrc l) pos line col (lemit l))
    | _ :: _ =>
      if is_prefix (bs "//") s then
        let len := (2 + span (fun c => negb (c =? 10)%N) (skipn 2 s))%nat in
        let l' := Lex (lsrc l) (pos + len) line (col + len) (lemit l) in
        if lemit l then Ok (Tok TOK_COMMENT pos len line col, l') else lexer_next_f fuel l'
      else if is_prefix (bs "/*") s then
        let body := block_body (skipn 2 s) in
        let text := firstn body (skipn 2 s) in
        let closed := is_prefix (bs "*/") (skipn (2 + body) s) in
        let len := (2 + body + (if closed then 2 else 0))%nat in
        let l' := Lex (lsrc l) (pos + len) (adv_line text line) (adv_col text col) (lemit l) in
        if lemit l then Ok (Tok TOK_COMMENT pos len line col, l') else lexer_next_f fuel l'
      else
        do '(ty, len, m) <- lex_token s;
        let text := firstn len s in
        Ok (Tok ty pos len line col,
            Lex (lsrc l) (pos + len) (move_line m text line) (move_col m text col) (lemit l))
    end
  end.

(** Each recursive call has moved forward by two bytes, so one unit of fuel per byte is
    enough ([lexer_next_fuel] in Lexer_Proofs.v shows this: the result is never [Fuel]). *)
Definition lexer_next (l : lexer) : res (token * lexer) :=
  lexer_next_f (S (length (lsrc l) - lpos l)) l.

(** token.c:650-654, 656-661 *)
Definition lexer_peek (l : lexer) : res token := do '(t, _) <- lexer_next l; Ok t.
Definition lexer_peek2 (l : lexer) : res token :=
  do '(_, l') <- lexer_next l; do '(t, _) <- lexer_next l'; Ok t.

(** A caller taking tokens until TOK_EOF (as the parser's main loop does), at most [n] *)
Fixpoint lex_all (n : nat) (l : lexer) : res (list token) :=
  match n with
  | O => Fuel
  | S n =>
    do '(t, l') <- lexer_next l;
    match tk t with
    | TOK_EOF => Ok [t]
    | _ => do ts <- lex_all n l'; Ok (t :: ts)
    end
  end.
