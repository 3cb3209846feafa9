(** embed (src/parser/parser_type.c:1105-1240 parse_embed): a file turned into a C
    initialiser at compile time. *)
From Verif Require Import Common IntLit_Model.
Local Open Scope N_scope.

(** The type written after [as]: none, an array or slice ([array_size] 0) of [inner], or
    another type; names as type_to_string gives them. *)
Inductive ety := EDefault | EArray (inner : bytes) (array_size : N) | EOther (ts : bytes).

(** printf %02X of a byte *)
Definition hexdig (d : N) : N := if d <? 10 then 48 + d else 55 + d.
Definition hex2 (b : N) : bytes := [hexdig (b / 16); hexdig (b mod 16)].

(** parser_type.c:1142-1189: the text in front of the bytes, and the type the expression
    gets ([target_type]); slice_name has 256 bytes. *)
Definition embed_head (t : ety) : res (bytes * bytes) :=
  match t with
  | EDefault => Ok (bs "(Slice_char){.data=(char[]){", bs "Slice_char")
  | EArray inner n =>
    if 0 <? n then Ok (bs "(" ++ inner ++ bs "[]){", inner ++ bs "*")
    else if (length inner + 7 <=? N.to_nat 256)%nat
         then Ok (bs "(Slice_" ++ inner ++ bs "){.data=(" ++ inner ++ bs "[]){", bs "Slice_" ++ inner)
         else UB
  | EOther ts =>
    if beq_bytes ts (bs "string") || beq_bytes ts (bs "char*") then Ok (bs "(char*)" ++ [34], ts)
    else Ok (bs "(" ++ ts ++ bs "){", ts)
  end.

(** parser_type.c:1193-1226.  The buffer has 6 bytes for each byte of the file and 256 more;
    the text before and after it is written with sprintf. *)
Definition embed_bytes (t : ety) (file : bytes) : res bytes :=
  do '(o, target) <- embed_head t;
  let is_string := beq_bytes target (bs "string") || beq_bytes target (bs "char*") in
  let body := concat (map (fun b => if is_string then [92; 120] ++ hex2 b else [48; 120] ++ hex2 b ++ [44]) file) in
  let len := print_llu (N.of_nat (length file)) in
  let tail :=
    if is_string then [34]
    else if is_prefix (bs "(Slice_") o then bs "},.len=" ++ len ++ bs ",.cap=" ++ len ++ bs "}"
    else bs "}" in
  let text := o ++ body ++ tail in
  if (2 ^ 31 <=? N.of_nat (length file)) || (N.of_nat (length file) * 6 + 256 <? N.of_nat (length text) + 1) then UB
  else Ok text.

(** parser_type.c:1105-1140: [tok] is the string token with its quotes, [fs] the files that can
    be opened.  The name is copied into a buffer of 256 bytes. *)
Definition parse_embed (fs : bytes -> option bytes) (tok : bytes) (t : ety) : res bytes :=
  let name := firstn (length tok - 2) (skipn 1 tok) in
  if (length tok <? 2)%nat || (N.to_nat 256 <=? length tok - 2)%nat then UB
  else match fs name with
       | None => Panic
       | Some file => embed_bytes t file
       end.

(** parser_decl.c:528-556: what follows the equals sign of a declaration; [is_ident]: the first
    token is an identifier.  The rest of the declaration is not modelled. *)
Inductive init_kind := Embedding | Expression.
Definition init_of (is_ident : bool) (tok : bytes) : init_kind :=
  if is_ident && is_prefix (bs "embed") tok then Embedding else Expression.
(** parser_type.c:1107-1112 and parser_decl.c:531-533: the token taken for [embed] is skipped
    and a string is required. *)
Definition declare_init (fs : bytes -> option bytes) (is_ident : bool) (tok next : bytes) (next_is_string : bool) : res (option bytes) :=
  match init_of is_ident tok with
  | Embedding => if next_is_string then do t <- parse_embed fs next EDefault; Ok (Some t) else Panic
  | Expression => Ok None
  end.
