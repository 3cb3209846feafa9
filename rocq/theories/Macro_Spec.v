(** What a user knows about plugin blocks. *)
From Verif Require Import Common Lexer_Model Lexer_Spec.
Local Open Scope nat_scope.

(** [Block src p d ts q]: from offset [p] of the source, at brace depth [d], the tokens of
    the block are [ts], with only blanks and comments around them, and the brace that closes
    the block ends at offset [q]. *)
Inductive Block (src : bytes) : nat -> nat -> list token -> nat -> Prop :=
| Block_end p t :
    Gap false (skipn p src) (skipn (tpos t) src) -> p <= tpos t -> tk t = TOK_RBRACE -> text src t = bs "}" ->
    Block src p 1 [] (tpos t + 1)
| Block_open p d t ts q :
    Gap false (skipn p src) (skipn (tpos t) src) -> p <= tpos t -> tk t = TOK_LBRACE ->
    Block src (tpos t + tlen t) (S d) ts q -> Block src p d (t :: ts) q
| Block_close p d t ts q :
    Gap false (skipn p src) (skipn (tpos t) src) -> p <= tpos t -> tk t = TOK_RBRACE -> 1 < d ->
    Block src (tpos t + tlen t) (pred d) ts q -> Block src p d (t :: ts) q
| Block_tok p d t ts q :
    Gap false (skipn p src) (skipn (tpos t) src) -> p <= tpos t ->
    tk t <> TOK_LBRACE -> tk t <> TOK_RBRACE -> tk t <> TOK_EOF ->
    Block src (tpos t + tlen t) d ts q -> Block src p d (t :: ts) q.

(** The tokens one after the other, each after a newline if it is on a later line than the
    token before it and after a space otherwise. *)
Fixpoint joined (src : bytes) (line : nat) (ts : list token) : bytes :=
  match ts with
  | [] => []
  | t :: ts => (if line <? tline t then 10%N else 32%N) :: text src t ++ joined src (tline t) ts
  end.

(** The characters that are not blank. *)
Definition solid (s : bytes) : bytes := filter (fun c => negb (isspace c)) s.

(** [Upto src p ts q]: from offset [p] the tokens are [ts], none of them the word [end], and
    the word [end] that comes after them ends at offset [q]. *)
Definition is_end (src : bytes) (t : token) : Prop := tk t = TOK_IDENT /\ text src t = bs "end".
Inductive Upto (src : bytes) : nat -> list token -> nat -> Prop :=
| Upto_end p t :
    Gap false (skipn p src) (skipn (tpos t) src) -> is_end src t -> Upto src p [] (tpos t + 3)
| Upto_tok p t ts q :
    Gap false (skipn p src) (skipn (tpos t) src) -> ~ is_end src t -> tk t <> TOK_EOF ->
    Upto src (tpos t + tlen t) ts q -> Upto src p (t :: ts) q.
Definition spaced (src : bytes) (ts : list token) : bytes := flat_map (fun t => text src t ++ [32%N]) ts.
