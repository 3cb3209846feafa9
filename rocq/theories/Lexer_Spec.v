(** What a user knows about the lexical structure, independent of the lexer's code. *)
From Verif Require Import Common Lexer_Model.
Local Open Scope N_scope.

(** Blank characters: space, tab, newline, vertical tab, form feed, carriage return. *)
Definition blank (c : N) : Prop := In c [32; 9; 10; 11; 12; 13].

Definition occurs (p s : bytes) : Prop := exists a b, s = a ++ p ++ b.

(** [Gap emit s s']: between the texts [s] and [s'] (a suffix of [s]) there are only
    blanks and, if comments are not wanted as tokens, comments.  A line comment runs to
    the end of its line.  A block comment runs to the first closing, or to the end of
    the source if there is none. *)
Inductive Gap (emit : bool) : bytes -> bytes -> Prop :=
| Gap_none s : Gap emit s s
| Gap_blank c s s' : blank c -> Gap emit s s' -> Gap emit (c :: s) s'
| Gap_line body s s' : emit = false -> ~ In 10 body -> (s = [] \/ exists r, s = 10 :: r) ->
    Gap emit s s' -> Gap emit (bs "//" ++ body ++ s) s'
| Gap_block body s s' : emit = false -> ~ occurs (bs "*/") body ->
    Gap emit s s' -> Gap emit (bs "/*" ++ body ++ bs "*/" ++ s) s'
| Gap_open body : emit = false -> ~ occurs (bs "*/") body -> Gap emit (bs "/*" ++ body) [].

(** A place where a gap cannot go on. *)
Definition gap_ends (emit : bool) (s : bytes) : Prop :=
  (forall c r, s = c :: r -> ~ blank c) /\
  (emit = false -> forall r, s <> bs "//" ++ r /\ s <> bs "/*" ++ r).

(** [Covers emit src p ts]: from offset [p] on, the source is exactly the tokens [ts]
    with gaps between them, and the last one is the end-of-file token. *)
Inductive Covers (emit : bool) (src : bytes) : nat -> list token -> Prop :=
| Cov_end p t :
    Gap emit (skipn p src) [] ->
    tk t = TOK_EOF -> tpos t = length src -> tlen t = 0%nat ->
    Covers emit src p [t]
| Cov_tok p t ts :
    (p <= tpos t)%nat -> Gap emit (skipn p src) (skipn (tpos t) src) ->
    gap_ends emit (skipn (tpos t) src) ->
    tk t <> TOK_EOF -> (0 < tlen t)%nat -> (tpos t + tlen t <= length src)%nat ->
    Covers emit src (tpos t + tlen t)%nat ts ->
    Covers emit src p (t :: ts).

(** The text of a token *)
Definition text (src : bytes) (t : token) : bytes := firstn (tlen t) (skipn (tpos t) src).

(** Line of an offset: one plus the newlines before it. *)
Definition line_at (src : bytes) (p : nat) : nat := S (count_occ N.eq_dec (firstn p src) 10).
(** Column [c] of an offset: one plus the bytes between the last newline, or the start
    of the source, and it. *)
Definition col_at (src : bytes) (p c : nat) : Prop :=
  exists a b, firstn p src = a ++ b /\ ~ In 10 b /\ (a = [] \/ exists a', a = a' ++ [10]) /\ c = S (length b).

(** The source does not end in a backslash or a quote. *)
Definition ends_well (src : bytes) : Prop := forall a, src <> a ++ [92] /\ src <> a ++ [39].

(** Operators and punctuation with the type of their token; any other byte is a
    one-byte operator. *)
Definition operators : list (bytes * tokty) :=
  [ (bs "?.", TOK_Q_DOT); (bs "??=", TOK_QQ_EQ); (bs "??", TOK_QQ); (bs "?", TOK_QUESTION);
    (bs "|>", TOK_PIPE); (bs "::", TOK_DCOLON);
    (bs "...", TOK_ELLIPSIS); (bs "..=", TOK_DOTDOT_EQ); (bs "..<", TOK_DOTDOT_LT); (bs "..", TOK_DOTDOT);
    (bs "->", TOK_ARROW); (bs "=>", TOK_ARROW);
    (bs "<<", TOK_OP); (bs ">>", TOK_OP); (bs "<<=", TOK_OP); (bs ">>=", TOK_OP);
    (bs "&&", TOK_OP); (bs "||", TOK_OP); (bs "++", TOK_OP); (bs "--", TOK_OP);
    (bs "==", TOK_OP); (bs "!=", TOK_OP); (bs "<=", TOK_OP); (bs ">=", TOK_OP);
    (bs "+=", TOK_OP); (bs "-=", TOK_OP); (bs "*=", TOK_OP); (bs "/=", TOK_OP); (bs "%=", TOK_OP);
    (bs "|=", TOK_OP); (bs "&=", TOK_OP); (bs "^=", TOK_OP);
    (bs "(", TOK_LPAREN); (bs ")", TOK_RPAREN); (bs "{", TOK_LBRACE); (bs "}", TOK_RBRACE);
    (bs "[", TOK_LBRACKET); (bs "]", TOK_RBRACKET); (bs "<", TOK_LANGLE); (bs ">", TOK_RANGLE);
    (bs ",", TOK_COMMA); (bs ":", TOK_COLON); (bs ";", TOK_SEMICOLON); (bs "@", TOK_AT);
    (bs "+", TOK_OP); (bs "-", TOK_OP); (bs "*", TOK_OP); (bs "/", TOK_OP); (bs "%", TOK_OP);
    (bs "|", TOK_OP); (bs "&", TOK_OP); (bs "^", TOK_OP); (bs "=", TOK_OP); (bs "!", TOK_OP);
    (bs "~", TOK_OP); (bs ".", TOK_OP) ].

(** Keywords with the type of their token *)
Definition keywords : list (bytes * tokty) :=
  [ (bs "test", TOK_TEST); (bs "assert", TOK_ASSERT); (bs "sizeof", TOK_SIZEOF); (bs "defer", TOK_DEFER);
    (bs "def", TOK_DEF); (bs "trait", TOK_TRAIT); (bs "impl", TOK_IMPL); (bs "autofree", TOK_AUTOFREE);
    (bs "alias", TOK_ALIAS); (bs "use", TOK_USE); (bs "comptime", TOK_COMPTIME); (bs "union", TOK_UNION);
    (bs "asm", TOK_ASM); (bs "volatile", TOK_VOLATILE); (bs "async", TOK_ASYNC); (bs "await", TOK_AWAIT);
    (bs "and", TOK_AND); (bs "or", TOK_OR); (bs "opaque", TOK_OPAQUE) ].

(** Letters, digits, underscore *)
Definition letter (c : N) : Prop := 65 <= c <= 90 \/ 97 <= c <= 122 \/ c = 95.
Definition digit (c : N) : Prop := 48 <= c <= 57.
Definition word_char (c : N) : Prop := letter c \/ digit c.

(** A character at which an operator or punctuation token starts. *)
Definition operator_start (c : N) : Prop :=
  ~ blank c /\ ~ word_char c /\ c <> 35 /\ c <> 34 /\ c <> 39.

(** The inside of a string literal: no unescaped quote, every backslash escapes one
    byte. *)
Inductive string_body : bytes -> Prop :=
| sb_nil : string_body []
| sb_char c b : c <> 34 -> c <> 92 -> string_body b -> string_body (c :: b)
| sb_esc c b : string_body b -> string_body (92 :: c :: b).
(** The inside of a raw string delimited by [q]: no quote [q] other than after a
    backslash. *)
Inductive raw_body (q : N) : bytes -> Prop :=
| rb_nil : raw_body q []
| rb_char c b : c <> q -> c <> 92 -> raw_body q b -> raw_body q (c :: b)
| rb_esc b : raw_body q b -> raw_body q (92 :: q :: b)
| rb_bs c b : c <> q -> raw_body q (c :: b) -> raw_body q (92 :: c :: b).
