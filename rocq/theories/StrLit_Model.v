(** String literals: from the token to the C string literal (src/parser/parser_expr.c,
    src/codegen/codegen.c).  Bytes of the source are not zero (it is read as a C string). *)
From Verif Require Import Common.
Local Open Scope N_scope.

(** parser_expr.c:969-1014 escape_c_string.  The output buffer has twice the input's length
    plus one byte; a write beyond it would be UB, so the number of bytes left is carried
    along ([room] counts the bytes still available before the terminator's). *)
Fixpoint escape_loop (room : nat) (input : bytes) {struct input} : res bytes :=
  match input with
  | [] => Ok []
  | c :: r =>
    if c =? 92 then
      match room, r with
      | S _, [] => Ok [c]
      | S (S room2), d :: r' => do o <- escape_loop room2 r'; Ok (c :: d :: o)
      | _, _ => UB
      end
    else
      let two (d : N) :=
        match room with
        | S (S room2) => do o <- escape_loop room2 r; Ok (92 :: d :: o)
        | _ => UB
        end in
      if c =? 10 then two 110
      else if c =? 13 then two 114
      else if c =? 9 then two 116
      else if c =? 34 then two 34
      else match room with
           | S room1 => do o <- escape_loop room1 r; Ok (c :: o)
           | _ => UB
           end
  end.
Definition escape_c_string (input : bytes) : res bytes := escape_loop (length input * 2) input.

(** What the parser makes of a string token: a literal, or an interpolated string with the
    given content (create_fstring_block, modelled in FStr_Model.v). *)
Inductive strnode := Literal (string_val : bytes) | Interpolated (content : bytes).

(** parser_expr.c:1441-1472 parse_string_literal.  [t] is the text of the token; a negative
    [str_len] is converted to a huge size by strncpy, which then writes past its buffer. *)
Definition parse_string_literal (t : bytes) : res strnode :=
  let is_multi := (6 <=? length t)%nat && is_prefix [34; 34; 34] t in
  let str_offset := if is_multi then 3%nat else 1%nat in
  if (length t <? (if is_multi then 6 else 2))%nat then UB
  else
    let str_len := (length t - (if is_multi then 6 else 2))%nat in
    let content := firstn str_len (skipn str_offset t) in
    if existsb (N.eqb 123) content then Ok (Interpolated content)
    else do v <- escape_c_string content; Ok (Literal v).

(** parser_expr.c:1690-1699: raw strings; xmalloc(len - 2), strncpy of len - 3 bytes from
    offset 2.  A token shorter than three bytes makes the length negative. *)
Definition parse_raw_literal (t : bytes) : res strnode :=
  if (length t <? 3)%nat then UB
  else Ok (Literal (firstn (length t - 3) (skipn 2 t))).

(** codegen.c:36-40 codegen_literal_expr on LITERAL_STRING *)
Definition emit_literal (string_val : bytes) : bytes := 34 :: string_val ++ [34].

(** From the token's text to the C text of the literal *)
Definition emit_string (raw : bool) (t : bytes) : res (option bytes) :=
  do n <- (if raw then parse_raw_literal t else parse_string_literal t);
  Ok (match n with Literal v => Some (emit_literal v) | Interpolated _ => None end).
