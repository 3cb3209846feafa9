(** Interpolated strings: the statements the compiler generates for them
    (src/parser/parser_expr.c) and what these do at run time. *)
From Verif Require Import Common StrLit_Model.
Local Open Scope nat_scope.

(** Values a program interpolates; the type decides the conversion _z_str picks. *)
Inductive cval := VBool (b : bool) | VChar (c : N) | VInt (z : Z) | VStr (s : bytes).

(** One generated statement: the literal text appended to _b (content of the C literal in
    "strcat(_b, ...)"), or "sprintf(_t, fmt, e); strcat(_b, _t);".  [None] as format is the
    call _z_str(e). *)
Inductive stmt (expr : Type) := CatText (lit : bytes) | CatExpr (e : expr) (fmt : option bytes).
Arguments CatText {expr}. Arguments CatExpr {expr}.

Section FStr.
Variable expr : Type.
(** The expression parser on the rest of the source: the expression and the text from its
    next token on, or [None] where it stops with an error (including the "invalid start"
    checks of lines 1195-1235). *)
Variable parse_expression : bytes -> option (expr * bytes).

(** strchr and strstr: the offset of the first occurrence *)
Fixpoint strchr (s : bytes) (c : N) : option nat :=
  match s with
  | [] => None
  | x :: r => if (x =? c)%N then Some 0 else option_map S (strchr r c)
  end.
Fixpoint strstr (s p : bytes) : option nat :=
  if is_prefix p s then Some 0
  else match s with [] => None | _ :: r => option_map S (strstr r p) end.

(** parser_expr.c:1121-1145: the colon that starts the format, as an offset into [s], the
    text between the braces.  A doubled colon is skipped. *)
Fixpoint find_colon (depth : Z) (s : bytes) : option nat :=
  match s with
  | [] => None
  | c :: r =>
    let depth := if (c =? 123)%N then (depth + 1)%Z else depth in
    let depth := if (c =? 125)%N then (depth - 1)%Z else depth in
    if (depth =? 1)%Z && (c =? 58)%N then
      match r with
      | d :: r' => if (d =? 58)%N then option_map (fun n => S (S n)) (find_colon depth r') else Some 0
      | [] => Some 0
      end
    else option_map S (find_colon depth r)
  end.

(** The literal text statement of 1062-1071, 1084-1093 and 1102-1110 *)
Definition cat_text (seg : bytes) : res (list (stmt expr)) :=
  if 0 <? length seg then do e <- escape_c_string seg; Ok [CatText e] else Ok [].

(** parser_expr.c:1259-1262: the token after the expression must be a closing brace or a
    single colon. *)
Definition stops_well (rest : bytes) : bool :=
  match rest with
  | c :: r => if (c =? 125)%N then true
              else if (c =? 58)%N then match r with d :: _ => negb (d =? 58)%N | [] => true end
              else false
  | [] => false
  end.

(** parser_expr.c:1042-1343, the loop of create_fstring_block.  [s] is the content from
    [cur] to [end] and [after] the source behind it.  Errors are [Panic]. *)
Fixpoint fstring_loop (fuel : nat) (s after : bytes) : res (list (stmt expr)) :=
  match fuel with
  | O => Fuel
  | S fuel =>
    if length s =? 0 then Ok []
    else
      let brace := strchr (s ++ after) 123 in
      let before (d : nat) := match brace with None => true | Some b => d <? b end in
      let dbl_close := match strstr (s ++ after) [125; 125]%N with
                       | Some d => if before d && (length s <=? d) then None else Some d
                       | None => None
                       end in
      match (match dbl_close with Some d => if before d then Some d else None | None => None end) with
      | Some d =>
        do t <- cat_text (firstn d s);
        do r <- fstring_loop fuel (skipn (d + 2) s) after;
        Ok (t ++ CatText [125]%N :: r)
      | None =>
        match (match brace with Some b => if length s <=? b then None else Some b | None => None end) with
        | None => cat_text s
        | Some b =>
          do t <- cat_text (firstn b s);
          if (b + 1 <? length s) && is_prefix [123]%N (skipn (b + 1) s) then
            do r <- fstring_loop fuel (skipn (b + 2) s) after;
            Ok (t ++ CatText [123]%N :: r)
          else
            match strchr (skipn b s ++ after) 125 with
            | None => Panic
            | Some e0 =>
              let e := b + e0 in
              if length s <=? e then Panic
              else
                let inner := firstn (e - (b + 1)) (skipn (b + 1) s) in
                match parse_expression (skipn (b + 1) s ++ after) with
                | None => Panic
                | Some (ex, rest) =>
                  if stops_well rest then
                    let fmt := match find_colon 1 inner with
                               | Some k => Some (37%N :: skipn (k + 1) inner)
                               | None => None
                               end in
                    do r <- fstring_loop fuel (skipn (e + 1) s) after;
                    Ok (t ++ CatExpr ex fmt :: r)
                  else Panic
                end
            end
        end
      end
  end.
(** parser_expr.c:1016-1352 create_fstring_block *)
Definition create_fstring_block (content after : bytes) : res (list (stmt expr)) :=
  fstring_loop (S (length content)) content after.

(** Run time.  [decode] is what the C compiler makes of the inside of a literal; [eval] is
    the value of an expression; [libc_format fmt v] is what sprintf writes, or [None] where
    the conversion does not fit the argument (UB). *)
Variable decode : bytes -> bytes.
Variable eval : expr -> cval.
Variable libc_format : bytes -> cval -> option bytes.

(** codegen_decl.c:28-34 and compat.h:56-61 _z_str: the conversion for each type.  The call
    made here passes the value itself, not _z_arg of it (1311-1331). *)
Definition z_str (v : cval) : bytes :=
  match v with
  | VBool _ => bs "%s"
  | VChar _ => bs "%c"
  | VInt _ => bs "%d"
  | VStr _ => bs "%s"
  end.

(** strcat into _b[4096]; both texts end at their first zero byte *)
Definition strcat_b (b x : bytes) : res bytes :=
  let r := cstr b ++ cstr x in
  if length r <? 4096 then Ok r else UB.
(** sprintf into _t[128] *)
Definition sprintf_t (fmt : bytes) (v : cval) : res bytes :=
  match libc_format fmt v with
  | None => UB
  | Some o => if length o <? 128 then Ok o else UB
  end.
Definition exec1 (b : bytes) (s : stmt expr) : res bytes :=
  match s with
  | CatText lit => strcat_b b (decode lit)
  | CatExpr e fmt =>
    let v := eval e in
    do t <- sprintf_t (match fmt with Some f => f | None => z_str v end) v;
    strcat_b b t
  end.
Fixpoint exec (b : bytes) (l : list (stmt expr)) : res bytes :=
  match l with
  | [] => Ok b
  | s :: r => do b' <- exec1 b s; exec b' r
  end.
End FStr.
Arguments fstring_loop {expr}. Arguments create_fstring_block {expr}. Arguments cat_text {expr}.
Arguments exec1 {expr}. Arguments exec {expr}.

(** The value of the whole expression is the address of its static buffer _b (line 1021 and
    1345): one buffer per place in the program.  [mem site] is the text in that buffer. *)
Definition mem := nat -> bytes.
Definition eval_fstring {expr} decode (eval : expr -> cval) libc_format (m : mem) (site : nat) (l : list (stmt expr)) : res (mem * nat) :=
  do b <- exec decode eval libc_format [] l;
  Ok ((fun s => if s =? site then b else m s), site).
