(** Print statements as a user writes them, and what each should write where. *)
From Verif Require Import Common StrLit_Spec Print_Model.
Local Open Scope nat_scope.

(** The printing table of the README: which stream, and whether a newline follows *)
Definition stream_of (k : form) : target :=
  match k with
  | Print | Println | Bare _ | Prompt => Stdout
  | Eprint | Eprintln | Bang _ => Stderr
  end.
Definition ends_line (k : form) : Prop := k = Println \/ k = Eprintln \/ k = Bare false \/ k = Bang false.

(** Pieces of a string: text, and expressions in braces with an optional format *)
Inductive piece (expr : Type) :=
| PText (t v : bytes)                            (* characters [t] denoting the bytes [v] *)
| PExpr (src : bytes) (e : expr) (fmt : option bytes). (* {src} or {src:fmt} *)
Arguments PText {expr}. Arguments PExpr {expr}.
Definition show {expr} (p : piece expr) : bytes :=
  match p with
  | PText t _ => t
  | PExpr src _ None => 123%N :: src ++ [125]%N
  | PExpr src _ (Some f) => 123%N :: src ++ 58%N :: f ++ [125]%N
  end.

(** Matching braces; and matching braces with colons outside them only in pairs *)
Inductive balanced : bytes -> Prop :=
| bal_nil : balanced []
| bal_char c r : c <> 123%N -> c <> 125%N -> balanced r -> balanced (c :: r)
| bal_group a r : balanced a -> balanced r -> balanced (123%N :: a ++ 125%N :: r).
Inductive colonless : bytes -> Prop :=
| cl_nil : colonless []
| cl_char c r : c <> 123%N -> c <> 125%N -> c <> 58%N -> colonless r -> colonless (c :: r)
| cl_two r : colonless r -> colonless (58%N :: 58%N :: r)
| cl_group a r : balanced a -> colonless r -> colonless (123%N :: a ++ 125%N :: r).

(** [unquoted s u]: [u] is [s] with every escaped quote replaced by a quote *)
Inductive unquoted : bytes -> bytes -> Prop :=
| uq_nil : unquoted [] []
| uq_quote s u : unquoted s u -> unquoted (92 :: 34 :: s)%N (34%N :: u)
| uq_char c s u : ~ (c = 92%N /\ exists r, s = 34%N :: r) -> unquoted s u -> unquoted (c :: s) (c :: u).
(** [s0] is the expression's own text: without escapes and leading blanks *)
Definition text_of (src s0 : bytes) : Prop :=
  exists n, unquoted src (repeat 32%N n ++ s0) /\ forall r, s0 <> 32%N :: r.

(** The names of types and the C types they stand for (64-bit Unix) *)
Definition type_names : list (bytes * ctype) :=
  [(bs "bool", TBool); (bs "char", TChar);
   (bs "i8", TSChar); (bs "I8", TSChar); (bs "int8_t", TSChar);
   (bs "u8", TUChar); (bs "U8", TUChar); (bs "uint8_t", TUChar); (bs "byte", TUChar);
   (bs "i16", TShort); (bs "I16", TShort); (bs "int16_t", TShort); (bs "short", TShort);
   (bs "u16", TUShort); (bs "U16", TUShort); (bs "uint16_t", TUShort); (bs "ushort", TUShort);
   (bs "int", TInt); (bs "i32", TInt); (bs "I32", TInt); (bs "int32_t", TInt); (bs "rune", TInt);
   (bs "uint", TUInt); (bs "u32", TUInt); (bs "U32", TUInt); (bs "uint32_t", TUInt);
   (bs "long", TLong); (bs "i64", TLong); (bs "I64", TLong); (bs "int64_t", TLong); (bs "isize", TLong); (bs "ptrdiff_t", TLong);
   (bs "ulong", TULong); (bs "u64", TULong); (bs "U64", TULong); (bs "uint64_t", TULong); (bs "usize", TULong); (bs "size_t", TULong);
   (bs "float", TFloat); (bs "f32", TFloat); (bs "F32", TFloat); (bs "double", TDouble); (bs "f64", TDouble); (bs "F64", TDouble);
   (bs "string", TStr); (bs "str", TStr); (bs "char*", TStr); (bs "const char*", TStr)].

Definition is_int (t : ctype) : Prop :=
  match t with TFloat | TDouble | TStr | TVoidPtr | TPtr | TOther => False | _ => True end.
Definition wf_value {real} (v : cval real) : Prop :=
  match v with
  | VInt t _ => is_int t
  | VReal t _ => t = TFloat \/ t = TDouble
  | VPtr t _ => t = TVoidPtr \/ t = TPtr
  | VText _ | VOther => True
  end.

(** The type's name is not one of those above and not a pointer's, and the expression does
    not look like a literal: the conversion is left to the C compiler. *)
Definition unnamed (ty : option bytes) : Prop :=
  match ty with Some n => ~ In n (map fst type_names) /\ ~ In 42%N n | None => True end.
Definition no_literal (s0 : bytes) : Prop :=
  match s0 with c :: _ => ~ (48 <= c <= 57)%N /\ c <> 45%N /\ c <> 34%N /\ c <> 39%N | [] => True end.
(** The type the compiler infers is the value's, and there is a conversion for it. *)
Definition shown {real} (ty : option bytes) (s0 : bytes) (v : cval real) : Prop :=
  (exists n, ty = Some n /\ In (n, typeof v) type_names) \/
  (exists n a t, ty = Some n /\ In 42%N n /\ ~ occurs (bs "char") n /\ v = VPtr t a) \/
  (unnamed ty /\ no_literal s0 /\ ~ In (typeof v) [TSChar; TPtr; TOther]).

(** The text of a value: numbers in decimal, characters as themselves *)
Definition value_text {real} (decimal : Z -> bytes) (fixed : real -> bytes) (addr : N -> bytes) (v : cval real) : bytes :=
  match v with
  | VInt TBool z => if (z =? 0)%Z then bs "false" else bs "true"
  | VInt TChar z => [Z.to_N (z mod 256)]
  | VInt _ z => decimal z
  | VReal _ r => fixed r
  | VText s => s
  | VPtr _ a => addr a
  | VOther => []
  end.
(** The C library's conversions; those it does not define for the argument are [None]. *)
Definition libc_ok {real} decimal fixed addr (libc : bytes -> cval real -> option bytes) : Prop :=
  (forall t z, In t [TChar; TSChar; TUChar; TShort; TUShort; TInt] -> libc (bs "%d") (VInt t z) = Some (decimal z)) /\
  (forall t z, In t [TUChar; TUShort; TUInt] -> libc (bs "%u") (VInt t z) = Some (decimal z)) /\
  (forall z, libc (bs "%ld") (VInt TLong z) = Some (decimal z)) /\
  (forall z, libc (bs "%lu") (VInt TULong z) = Some (decimal z)) /\
  (forall z, libc (bs "%lld") (VInt TLLong z) = Some (decimal z)) /\
  (forall z, libc (bs "%llu") (VInt TULLong z) = Some (decimal z)) /\
  (forall t z, In t [TChar; TSChar] -> libc (bs "%c") (VInt t z) = Some [Z.to_N (z mod 256)]) /\
  (forall t r, libc (bs "%f") (VReal t r) = Some (fixed r)) /\
  (forall s, libc (bs "%s") (VText s) = Some s) /\
  (forall t a, libc (bs "%p") (VPtr t a) = Some (addr a)) /\
  (forall t r, libc (bs "%d") (VReal t r) = None) /\
  (forall a, libc (bs "%s") (VPtr TPtr a) = None).

Section Spec.
Variable expr world real : Type.
Variable parse_expression : bytes -> res expr.
Variable inferred_type : bytes -> expr -> option bytes.
Variable struct_of : expr -> option (bytes * bool).
Variable has_func : bytes -> bool.
Variable emit : expr -> bytes.
Variable eval : expr -> world -> cval real * world.
Variable method : bytes -> expr -> world -> bytes * world.
Variable libc : bytes -> cval real -> option bytes.
Variable decimal : Z -> bytes.
Variable fixed : real -> bytes.
Variable addr : N -> bytes.

Definition piece_ok (p : piece expr) : Prop :=
  match p with
  | PText t v => t <> [] /\ ~ In 123%N t /\ Denotes z_multi_plain t v /\ ~ In 0%N v
  | PExpr src e fmt =>
      colonless src /\ ~ In 0%N src /\ (exists s0, text_of src s0 /\ parse_expression s0 = Ok e) /\
      match fmt with
      | None => True
      | Some f => ~ occurs [92; 34]%N src /\ ~ occurs [92; 34]%N f /\ ~ In 0%N f /\ ~ In 123%N f /\ ~ In 125%N f /\
                  f <> [] /\ forall r, f <> 58%N :: r
      end
  end.
(** Text is not cut in two. *)
Fixpoint no_adjacent (ps : list (piece expr)) : Prop :=
  match ps with
  | PText _ _ :: ((PText _ _ :: _) as r) => False
  | _ :: r => no_adjacent r
  | [] => True
  end.

(** The struct of the expression, if any, has no to_string method; or it has one *)
Definition no_method (e : expr) : Prop :=
  struct_of e = None \/
  exists n p, struct_of e = Some (n, p) /\ length n < 245 /\ has_func (n ++ bs "__to_string") = false.
Definition has_method (e : expr) (n : bytes) (ptr : bool) : Prop :=
  struct_of e = Some (n, ptr) /\ length n < 245 /\ has_func (n ++ bs "__to_string") = true.

(** [writes p w out w']: in the state [w] the piece is to write [out], leaving [w'].  Each
    expression is evaluated once. *)
Inductive writes : piece expr -> world -> bytes -> world -> Prop :=
| w_text t v w : writes (PText t v) w v w
| w_value src s0 e v w w' : text_of src s0 -> eval e w = (v, w') -> no_method e -> wf_value v ->
    shown (inferred_type s0 e) s0 v -> writes (PExpr src e None) w (value_text decimal fixed addr v) w'
| w_method src s0 e n s w w' : text_of src s0 -> has_method e n false -> method n e w = (s, w') ->
    unnamed (inferred_type s0 e) -> no_literal s0 -> writes (PExpr src e None) w s w'
| w_format src e f v x w w' : eval e w = (v, w') -> no_method e -> libc (37%N :: f) v = Some x ->
    writes (PExpr src e (Some f)) w x w'
| w_format_method src e n p f s x w w' : has_method e n p -> method n e w = (s, w') -> libc (37%N :: f) (VText s) = Some x ->
    writes (PExpr src e (Some f)) w x w'.
(** Pieces write one after the other. *)
Inductive writes_all : list (piece expr) -> world -> list bytes -> world -> Prop :=
| wa_nil w : writes_all [] w [] w
| wa_cons p ps w x w1 xs w2 : writes p w x w1 -> writes_all ps w1 xs w2 -> writes_all (p :: ps) w (x :: xs) w2.

(** A bound for the C text generated for a piece *)
Definition cost (p : piece expr) : nat :=
  match p with
  | PText t _ => 2 * length t + 40
  | PExpr _ e fmt =>
      2 * length (emit e) + match struct_of e with Some (n, _) => 4 * length n | None => 0 end +
      match fmt with Some f => length f | None => 0 end + 160
  end.
Definition total_cost (ps : list (piece expr)) : nat := list_sum (map cost ps).
End Spec.

(** A string token: the content between quotes or triple quotes, after an f or not *)
Definition token (fstring multi : bool) (content : bytes) : bytes :=
  (if fstring then [102%N] else []) ++
  (if multi then [34; 34; 34]%N ++ content ++ [34; 34; 34]%N else [34%N] ++ content ++ [34%N]).
