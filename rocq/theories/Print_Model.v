(** Print statements: the C statements generated for the string of print, println, eprint
    and eprintln and of their shorthands (src/parser/parser_stmt.c, src/parser/parser_expr.c)
    and what these do at run time. *)
From Verif Require Import Common StrLit_Model FStr_Model.
Local Open Scope nat_scope.

(** The C type of a value, as far as printf and _Generic tell them apart *)
Inductive ctype :=
| TBool | TChar | TSChar | TUChar | TShort | TUShort | TInt | TUInt | TLong | TULong | TLLong | TULLong
| TFloat | TDouble | TStr | TVoidPtr | TPtr | TOther.
(** A value: an integer of an integer type, a floating-point number (abstract), the text a
    char pointer points to, another pointer, or a value no conversion exists for. *)
Inductive cval (real : Type) :=
| VInt (t : ctype) (z : Z) | VReal (t : ctype) (r : real) | VText (s : bytes) | VPtr (t : ctype) (a : N) | VOther.
Arguments VInt {real}. Arguments VReal {real}. Arguments VText {real}. Arguments VPtr {real}. Arguments VOther {real}.
Definition typeof {real} (v : cval real) : ctype :=
  match v with VInt t _ => t | VReal t _ => t | VText _ => TStr | VPtr t _ => t | VOther => TOther end.

(** The expression passed to fprintf: the expression itself, or a call of its to_string
    method (lines 1853-1903); [ptr]: the expression is already a pointer. *)
Inductive arg (expr : Type) := Plain (e : expr) | ToString (struct : bytes) (ptr : bool) (e : expr).
Arguments Plain {expr}. Arguments ToString {expr}.

(** One generated statement: fprintf of "%s" and a literal, fprintf with a given conversion,
    the same through _z_bool_str, fprintf with _z_str and _z_arg, the newline, the flush. *)
Inductive pstmt (expr : Type) :=
| Text (lit : bytes) | Conv (fmt : bytes) (a : arg expr) | ConvBool (a : arg expr) | Generic (a : arg expr)
| Newline | Flush.
Arguments Text {expr}. Arguments Conv {expr}. Arguments ConvBool {expr}. Arguments Generic {expr}.
Arguments Newline {expr}. Arguments Flush {expr}.

Inductive target := Stdout | Stderr.
Definition target_name (t : target) : bytes := match t with Stdout => bs "stdout" | Stderr => bs "stderr" end.

(** parser_stmt.c:1727-1756: from behind the opening brace to the matching closing one (or
    the end), with the offset of the first single colon at depth one. *)
Fixpoint scan (depth i : nat) (colon : option nat) (s : bytes) {struct s} : nat * option nat :=
  match s with
  | [] => (i, colon)
  | c :: r =>
    let depth := if (c =? 123)%N then S depth else depth in
    let depth := if (c =? 125)%N then pred depth else depth in
    if (depth =? 1) && (c =? 58)%N && (match colon with None => true | Some _ => false end) then
      match r with
      | d :: r' => if (d =? 58)%N then scan depth (S (S i)) colon r' else scan depth (S i) (Some i) r
      | [] => scan depth (S i) (Some i) r
      end
    else if depth =? 0 then (i, colon)
    else scan depth (S i) colon r
  end.

(** parser_stmt.c:1762-1780: a backslash and a quote become a quote *)
Fixpoint unescape (s : bytes) : bytes :=
  match s with
  | c :: ((d :: r') as r) => if (c =? 92)%N && (d =? 34)%N then 34%N :: unescape r' else c :: unescape r
  | l => l
  end.

(** The bytes from the opening brace's successor to the terminator written at [p], after the
    in-place unescaping: the bytes behind its new terminator are those that were there. *)
Definition rewritten (inner : bytes) : bytes :=
  let u := unescape inner in u ++ 0%N :: skipn (S (length u)) (inner ++ [0%N]).
(** parser_stmt.c:1781-1786: the colon, at its old offset, becomes a terminator *)
Definition cut (colon : option nat) (region : bytes) : bytes :=
  match colon with Some c => firstn c region ++ 0%N :: skipn (S c) region | None => region end.

(** parser_stmt.c:1788-1792 *)
Fixpoint skip_spaces (s : bytes) : bytes :=
  match s with c :: r => if (c =? 32)%N then skip_spaces r else s | [] => [] end.

Definition is_one_of (l : list bytes) (t : bytes) : bool := existsb (beq_bytes t) l.
Definition ends_with_star (t : bytes) : bool := match rev t with c :: _ => (c =? 42)%N | [] => false end.

(** parser_stmt.c:1946-2006: the conversion for a type name; the flag marks a bool *)
Definition spec_of_type (t : bytes) : option (bytes * bool) :=
  if beq_bytes t (bs "bool") then Some (bs "%s", true)
  else if is_one_of [bs "int"; bs "i32"; bs "I32"; bs "int32_t"; bs "i16"; bs "I16"; bs "int16_t"; bs "i8"; bs "I8";
                     bs "int8_t"; bs "short"; bs "ushort"; bs "rune"] t then Some (bs "%d", false)
  else if is_one_of [bs "uint"; bs "u32"; bs "U32"; bs "uint32_t"; bs "u16"; bs "U16"; bs "uint16_t"; bs "u8"; bs "U8";
                     bs "uint8_t"; bs "byte"] t then Some (bs "%u", false)
  else if is_one_of [bs "long"; bs "i64"; bs "I64"; bs "int64_t"; bs "isize"; bs "ptrdiff_t"] t then Some (bs "%ld", false)
  else if is_one_of [bs "usize"; bs "u64"; bs "U64"; bs "uint64_t"; bs "size_t"; bs "ulong"] t then Some (bs "%lu", false)
  else if is_one_of [bs "float"; bs "f32"; bs "F32"; bs "double"; bs "f64"; bs "F64"] t then Some (bs "%f", false)
  else if beq_bytes t (bs "char") then Some (bs "%c", false)
  else if beq_bytes t (bs "string") || beq_bytes t (bs "str") ||
          (ends_with_star t && match strstr t (bs "char") with Some _ => true | None => false end) then Some (bs "%s", false)
  else if existsb (N.eqb 42) t then Some (bs "%p", false)
  else None.
(** parser_stmt.c:2012-2027: the guess from the first character of the expression *)
Definition spec_of_literal (s : bytes) : option bytes :=
  match s with
  | c :: _ => if ((48 <=? c) && (c <=? 57) || (c =? 45))%N then Some (bs "%d")
              else if (c =? 34)%N then Some (bs "%s")
              else if (c =? 39)%N then Some (bs "%c") else None
  | [] => None
  end.

Section Print.
Variable expr : Type.
(** parse_expression on the text of an inserted expression ([Panic]: a syntax error; an
    expression parser that returns nothing, so that the text itself is emitted, is not
    modelled), the name of its type (type_to_string, or find_symbol_type when the expression
    carries none), the struct it is or points to, and the C text codegen_expression prints. *)
Variable parse_expression : bytes -> res expr.
Variable inferred_type : bytes -> expr -> option bytes.
Variable struct_of : expr -> option (bytes * bool).
Variable has_func : bytes -> bool.
Variable emit : expr -> bytes.

(** parser_stmt.c:1853-1903; mangled[256] holds the name and "__to_string" *)
Definition rewrite_arg (e : expr) : res (arg expr) :=
  match struct_of e with
  | Some (name, ptr) =>
    if length name + 11 <? 256 then
      if has_func (name ++ bs "__to_string") then Ok (ToString name ptr e) else Ok (Plain e)
    else UB
  | None => Ok (Plain e)
  end.
Definition arg_text (a : arg expr) : bytes :=
  match a with
  | Plain e => emit e
  | ToString n true e => n ++ bs "__to_string(" ++ emit e ++ bs ")"
  | ToString n false e => n ++ bs "__to_string(({ " ++ n ++ bs " _z_tmp = (" ++ emit e ++ bs "); &_z_tmp; }))"
  end.

(** The text appended to the buffer gen (1718, 1924-1931, 2029-2057, 2072-2080) *)
Definition quote : bytes := [34%N].
Definition backslash_n : bytes := [92; 110]%N.
Definition render (t : target) (s : pstmt expr) : bytes :=
  match s with
  | Text lit => bs "fprintf(" ++ target_name t ++ bs ", " ++ quote ++ bs "%s" ++ quote ++ bs ", " ++ quote ++ lit ++ quote ++ bs "); "
  | Conv f a => bs "fprintf(" ++ target_name t ++ bs ", " ++ quote ++ f ++ quote ++ bs ", " ++ arg_text a ++ bs "); "
  | ConvBool a => bs "fprintf(" ++ target_name t ++ bs ", " ++ quote ++ bs "%s" ++ quote ++ bs ", _z_bool_str(" ++ arg_text a ++ bs ")); "
  | Generic a => bs "fprintf(" ++ target_name t ++ bs ", _z_str(" ++ arg_text a ++ bs "), _z_arg(" ++ arg_text a ++ bs ")); "
  | Newline => bs "fprintf(" ++ target_name t ++ bs ", " ++ quote ++ backslash_n ++ quote ++ bs "); "
  | Flush => bs "fflush(stdout); "
  end.

(** parser_stmt.c:1921-2060: the statement for one inserted expression.  [src] is clean_expr *)
Definition choose (src : bytes) (fmt : option bytes) (e : expr) (a : arg expr) : pstmt expr :=
  match fmt with
  | Some f => Conv (37%N :: f) a
  | None =>
    match (match inferred_type src e with Some t => spec_of_type t | None => None end) with
    | Some (_, true) => ConvBool a
    | Some (f, false) => Conv f a
    | None => match spec_of_literal src with Some f => Conv f a | None => Generic a end
    end
  end.

(** The text up to the next opening brace *)
Fixpoint to_brace (s : bytes) : nat :=
  match s with c :: r => if (c =? 123)%N then 0 else S (to_brace r) | [] => 0 end.

(** parser_stmt.c:1693-2069, the loop.  When the string ends inside braces, [p] is its
    terminator and [cur] the byte behind it, outside the string: UB. *)
Fixpoint sugar_loop (fuel : nat) (cur : bytes) : res (list (pstmt expr)) :=
  match fuel with
  | O => Fuel
  | S fuel =>
    if length cur =? 0 then Ok []
    else
      let n := to_brace cur in
      do pre <- (if 0 <? n then do e <- escape_c_string (firstn n cur); Ok [Text e] else Ok []);
      match skipn n cur with
      | [] => Ok pre
      | _ :: body =>
        let '(p, colon) := scan 1 0 None body in
        let region := cut colon (rewritten (firstn p body)) in
        let src := skip_spaces (cstr region) in
        let fmt := match colon with Some c => Some (cstr (skipn (S c) region)) | None => None end in
        do e <- parse_expression src;
        do a <- rewrite_arg e;
        match skipn p body with
        | [] => UB
        | _ :: rest => do r <- sugar_loop fuel rest; Ok (pre ++ choose src fmt e a :: r)
        end
      end
  end.

(** parser_stmt.c:1682-2087 process_printf_sugar; the text is collected in gen[8192] *)
Definition process_printf_sugar (content : bytes) (newline : bool) (t : target) : res (list (pstmt expr)) :=
  do l <- sugar_loop (S (length content)) content;
  let l := l ++ [if newline then Newline else Flush] in
  if (N.of_nat (length (bs "({ " ++ flat_map (render t) l ++ bs "0; })")) <? 8192)%N then Ok l else UB.

(** The print statements: a keyword or one of the shorthands (parser_stmt.c:2256-2318,
    2822-2880, parser_expr.c:4603-4626, 4764-4796) *)
Inductive form := Print | Println | Eprint | Eprintln | Bare (dots : bool) | Bang (dots : bool) | Prompt.
Definition form_target (k : form) : target := match k with Eprint | Eprintln | Bang _ => Stderr | _ => Stdout end.
Definition form_newline (k : form) : bool :=
  match k with Println | Eprintln => true | Print | Eprint | Prompt => false | Bare dots | Bang dots => negb dots end.
(** The quotes are stripped: one or, for a multi-line string, three on each side, after the
    letter of an f-string.  The forms of parser_expr.c strip one in any case. *)
Definition strip (k : form) (fstring : bool) (t : bytes) : res bytes :=
  let off := if fstring then 1 else 0 in
  let is_multi := match k with
                  | Bang _ | Prompt => false
                  | _ => (off + 6 <=? length t) && is_prefix [34; 34; 34]%N (skipn off t)
                  end in
  let q := if is_multi then 3 else 1 in
  if length t <? off + q + q then UB
  else Ok (firstn (length t - (off + q + q)) (skipn (off + q) t)).
Definition print_statement (k : form) (fstring : bool) (t : bytes) : res (target * list (pstmt expr)) :=
  do inner <- strip k fstring t;
  do l <- process_printf_sugar inner (form_newline k) (form_target k);
  Ok (form_target k, l).

(** Run time.  [decode] is what the C compiler makes of the inside of a literal, [eval] the
    evaluation of an expression, [method] the call of a to_string method, [libc] what fprintf
    writes for one conversion, or [None] where it does not fit the argument (UB). *)
Variable world real : Type.
Variable decode : bytes -> bytes.
Variable eval : expr -> world -> cval real * world.
Variable method : bytes -> expr -> world -> bytes * world.
Variable libc : bytes -> cval real -> option bytes.

Inductive event := Wrote (t : target) (b : bytes) | Flushed.

Definition eval_arg (a : arg expr) (w : world) : cval real * world :=
  match a with
  | Plain e => eval e w
  | ToString n _ e => let '(s, w') := method n e w in (VText s, w')
  end.
(** codegen_decl.c:28-34 _z_str: the conversion for each C type; [None]: no association of
    the _Generic fits, and the C compiler rejects the program.  Its operand is not evaluated. *)
Definition z_str (t : ctype) : option bytes :=
  match t with
  | TBool => Some (bs "%s") | TChar => Some (bs "%c") | TSChar => Some (bs "%c") | TUChar => Some (bs "%u")
  | TShort => Some (bs "%d") | TUShort => Some (bs "%u") | TInt => Some (bs "%d") | TUInt => Some (bs "%u")
  | TLong => Some (bs "%ld") | TULong => Some (bs "%lu") | TLLong => Some (bs "%lld") | TULLong => Some (bs "%llu")
  | TFloat => Some (bs "%f") | TDouble => Some (bs "%f") | TStr => Some (bs "%s") | TVoidPtr => Some (bs "%p")
  | TPtr => None | TOther => None
  end.
(** codegen_decl.c:26 and 35 _z_bool_str and _z_arg *)
Definition z_bool_str (z : Z) : cval real := VText (if (z =? 0)%Z then bs "false" else bs "true").
Definition z_arg (v : cval real) : cval real := match v with VInt TBool z => z_bool_str z | _ => v end.

Definition fprintf (t : target) (f : bytes) (v : cval real) (w : world) : res (world * list event) :=
  match libc f v with Some o => Ok (w, [Wrote t o]) | None => UB end.
(** [Panic] stands for a program the C compiler rejects. *)
Definition exec1 (t : target) (w : world) (s : pstmt expr) : res (world * list event) :=
  match s with
  | Text lit => fprintf t (bs "%s") (VText (decode lit)) w
  | Conv f a => let '(v, w') := eval_arg a w in fprintf t f v w'
  | ConvBool a =>
    let '(v, w') := eval_arg a w in
    match v with VInt _ z => fprintf t (bs "%s") (z_bool_str z) w' | _ => Panic end
  | Generic a =>
    let '(v, w') := eval_arg a w in
    match z_str (typeof v) with Some f => fprintf t f (z_arg v) w' | None => Panic end
  | Newline => Ok (w, [Wrote t [10%N]])
  | Flush => Ok (w, [Flushed])
  end.
Fixpoint exec (t : target) (w : world) (l : list (pstmt expr)) : res (world * list event) :=
  match l with
  | [] => Ok (w, [])
  | s :: r => do o <- exec1 t w s; do q <- exec t (fst o) r; Ok (fst q, snd o ++ snd q)
  end.
(** Compile the print statement and run it. *)
Definition run (k : form) (fstring : bool) (t : bytes) (w : world) : res (world * list event) :=
  do p <- print_statement k fstring t; exec (fst p) w (snd p).
End Print.
Arguments print_statement {expr}. Arguments process_printf_sugar {expr}. Arguments sugar_loop {expr}. Arguments exec {expr} {world} {real}.
Arguments exec1 {expr} {world} {real}. Arguments run {expr} _ _ _ _ _ {world} {real}. Arguments choose {expr}. Arguments rewrite_arg {expr}. Arguments render {expr}.
Arguments eval_arg {expr} {world} {real}. Arguments fprintf {world} {real}. Arguments arg_text {expr}.
