(** Model of the type checker behind zc check and --typecheck: src/analysis/typecheck.c (check_expr_unary 175-249,
    check_expr_binary 251-494, check_expr_call 496-650, check_block 652-683, check_type_compatibility 685-796,
    check_var_decl 798-832, check_expr_literal 985-1005, check_node 1072-1567), over the types and type_eq of Types.

    Simplifications: moves are left out (see Move), and so is the check that a function returns on every path (see Ret).  The parser
    leaves a type on every node, which the checker overwrites where it knows better: here a variable has the type of its
    declaration, a call the result type of its function (parser_expr.c:3318), [Other] is an expression the
    checker does not look into (member access, cast, address-of) with the type the parser gave it, and after
    an error an expression has no type.  A callee is the name of a function; no argument has a function type with unknown parts
    (574-592); no struct has an index or get method (1264-1315); an assignment operator is not an operand. *)
From Verif Require Import Common Types_Model.
Local Open Scope nat_scope.

(** The integer kinds: 0 to 5 are I32, INT, U32, UINT, C_INT, C_UINT; 6 BOOL; 7 ISIZE; the others from 8 on.  Float kind 2 is
    F64; plain kind 0 is VOID. *)
Definition t_i32 := TIntK 0. Definition t_int := TIntK 1. Definition t_bool := TIntK 6.
Definition t_isize := TIntK 7. Definition t_f64 := TFloatK 2. Definition t_void := TPlain 0.
Definition is_32 (t : ty) : bool := match t with TIntK k => k <? 6 | _ => false end.

Inductive lit := LInt (n : Z) | LFloat (zero : bool) | LStr | LChar.
Inductive unop := Not | Neg | Deref | BNot.
(** [Cmp]: == != < > <= >=; [Logic]: && and ||; [Bit]: & | ^; [Shift]: << >>; [Compound]: += and the like *)
Inductive binop := Add | Sub | Mul | Div | Mod | Cmp | Logic | Bit | Shift | Compound.
Inductive exp :=
| Lit (l : lit) | Var (x : nat) | Other (t : option ty)
| Un (o : unop) (e : exp) | Bin (o : binop) (a b : exp) | Assign (a b : exp)
| Call (f : nat) (l : args) | Index (a i : exp) | Tern (c a b : exp)
with args := ANil | ACons (e : exp) (l : args).
Inductive stmt :=
| SExp (e : exp) | SLet (x : nat) (t : option ty) (e : exp)
| SIf (c : exp) (a b : block) | SWhile (c : exp) (b : block) | SReturn (e : option exp) | SBreak | SBlock (b : block)
with block := BNil | BCons (s : stmt) (b : block).

Record sig := mksig { params : list ty; required : nat; varargs : bool; ret : ty }.
Record env := mkenv { vars : nat -> option ty; funs : nat -> option sig; aliases : bytes -> option bytes;
  returns : bool (* the function does not return void *) }.

(** typecheck.c:166-173 *)
Fixpoint resolve (t : ty) : ty := match t with TAlias _ _ u => resolve u | _ => t end.
Definition is_ptr (t : ty) : bool := match t with TPointer _ | TString => true | _ => false end.
Definition is_vec (t : ty) : bool := match t with TVector _ _ => true | _ => false end.
(** Type.name *)
Definition tname (t : ty) : option bytes :=
  match t with TStruct n | TGeneric n | TAlias _ n _ => Some n | _ => None end.
Definition name_is (t : ty) (n : bytes) : bool := match tname t with Some m => beq_bytes m n | None => false end.
Definition is_void_ptr (t : ty) : bool := match t with TPointer (TPlain k) => k =? 0 | _ => false end.
(** typecheck.c:98-115; the kinds 8 to 11 are I8, U8, C_CHAR, C_UCHAR *)
Definition is_char_type (t : ty) : bool :=
  match t with TChar => true | TIntK k => (8 <=? k) && (k <? 12) | TStruct n => beq_bytes n (bs "char") | _ => false end.
(** typecheck.c:702-724: an alias of that name *)
Definition alias_of (g : env) (a b : ty) : bool :=
  match a with
  | TAlias _ n _ => match aliases g n with Some m => name_is b m | None => false end
  | _ => false
  end.

(** check_type_compatibility, 685-796 *)
Definition compat (g : env) (target value : ty) : bool :=
  type_eq target value || alias_of g target value || alias_of g value target
  || ((is_string target || name_is target (bs "str")) && (is_string value || name_is value (bs "string")))
  || is_void_ptr target || is_void_ptr value
  || (is_integer target && is_integer value)
  || match target, value with TPointer a, TArray _ b => type_eq a b || (is_char_type a && is_char_type b) | _, _ => false end
  || (is_float target && is_float value).
(** if both types are known; the number of errors *)
Definition place (g : env) (target value : option ty) : nat :=
  match target, value with Some t, Some v => if compat g t v then 0 else 1 | _, _ => 0 end.
Definition err (b : bool) : nat := if b then 0 else 1.

Definition numeric (t : ty) : bool := is_integer t || is_float t.
(** 175-249 *)
Definition unary (o : unop) (t : option ty) : option ty * nat :=
  match t with
  | None => (None, 0)
  | Some t =>
    match o with
    | Not => (Some t_bool, 0)
    | Neg => if numeric t then (Some t, 0) else (None, 1)
    | Deref =>
      if is_unknown t then (Some TUnknown, 0)
      else match resolve t with
      | TPointer u => (Some u, 0)
      | TString => (Some TChar, 0)
      | _ => (None, 1)
      end
    | BNot => if is_integer t then (Some t, 0) else (None, 1)
    end
  end.
(** 301-325: division by a literal zero *)
Definition zero_lit (e : exp) : bool :=
  match e with Lit (LInt n) => (n =? 0)%Z | Lit (LFloat z) => z | _ => false end.
(** 327-397 *)
Definition arith (o : binop) (a b : option ty) : option ty * nat :=
  match a, b with
  | Some a, Some b =>
    let ra := resolve a in let rb := resolve b in
    let add := match o with Add => true | _ => false end in
    let sub := match o with Sub => true | _ => false end in
    if is_ptr ra && sub && is_ptr rb then (Some t_isize, 0)
    else if is_ptr ra && (add || sub) && is_integer rb then (Some a, 0)
    else if add && is_integer ra && is_ptr rb then (Some b, 0)
    else if negb ((numeric a || is_vec a) && (numeric b || is_vec b))
    then if is_unknown a || is_unknown b then (Some TUnknown, 0) else (None, 1)
    else if is_vec a || is_vec b then (Some a, err (is_vec a && is_vec b && type_eq a b))
    else if is_float a || is_float b then (Some t_f64, 0)
    else (Some a, 0)
  | _, _ => (None, 0)
  end.
(** 399-429 *)
Definition compare (a b : option ty) : option ty * nat :=
  (Some t_bool,
   match a, b with
   | Some a, Some b => err (type_eq a b || (numeric a && numeric b) || is_unknown a || is_unknown b)
   | _, _ => 0
   end).
(** 443-467: the amount of a shift, when it is a literal *)
Definition wide_shift (t : option ty) (e : exp) : bool :=
  match e with
  | Lit (LInt n) => (64 <=? n)%Z || ((32 <=? n)%Z && match t with Some t => is_32 t | None => false end)
  | _ => false
  end.
(** 469-491 *)
Definition bitwise (a b : option ty) : option ty * nat :=
  match a, b with
  | Some a, Some b =>
    if negb ((is_integer a || is_vec a) && (is_integer b || is_vec b)) then (None, 1)
    else if is_vec a || is_vec b then (Some a, err (is_vec a && is_vec b && type_eq a b))
    else (Some a, 0)
  | _, _ => (None, 0)
  end.
Definition binary (o : binop) (a b : option ty) (eb : exp) : option ty * nat :=
  match o with
  | Add | Sub | Mul => arith o a b
  | Div | Mod => let '(t, n) := arith o a b in (t, (if zero_lit eb then 1 else 0) + n)
  | Cmp => compare a b
  | Logic => (Some t_bool, 0)
  | Bit => bitwise a b
  | Shift => let '(t, n) := bitwise a b in (t, (if wide_shift a eb then 1 else 0) + n)
  | Compound => (None, 0)          (* no branch of 251-494 *)
  end.
Fixpoint arg_count (l : args) : nat := match l with ANil => 0 | ACons _ l => S (arg_count l) end.

(** check_node on expressions: the type and the number of errors *)
Fixpoint check (g : env) (e : exp) : option ty * nat :=
  match e with
  | Lit (LInt _) => (Some t_i32, 0) | Lit (LFloat _) => (Some t_f64, 0)
  | Lit LStr => (Some TString, 0) | Lit LChar => (Some TChar, 0)
  | Var x => (vars g x, 0)
  | Other t => (t, 0)
  | Un o e => let '(t, n) := check g e in let '(u, m) := unary o t in (u, n + m)
  | Bin o a b =>
    let '(ta, na) := check g a in let '(tb, nb) := check g b in
    let '(t, n) := binary o ta tb b in (t, na + nb + n)
  | Assign a b =>
    let '(ta, na) := check g a in let '(tb, nb) := check g b in
    (ta, na + nb + place g ta tb)
  | Call f l =>
    match funs g f with
    | None => (None, 1 + check_args g [] l)                               (* 525-535 *)
    | Some s =>                                                            (* 548-585 *)
      (Some (ret s), (if arg_count l <? required s then 1
                      else if (length (params s) <? arg_count l) && negb (varargs s) then 1 else 0)
                     + check_args g (params s) l)
    end
  | Index a i =>                                                           (* 1255-1340; parser_expr.c:4224-4256 *)
    let '(ta, na) := check g a in let '(ti, ni) := check g i in
    (match ta with
     | None => None
     | Some (TArray _ u) | Some (TPointer u) | Some (TVector _ u) => Some u
     | Some _ => Some t_int
     end,
     na + ni + match ti with Some t => err (is_integer t) | None => 0 end)
  | Tern c a b =>                                                          (* 1495-1526 *)
    let '(tc, nc) := check g c in let '(ta, na) := check g a in let '(tb, nb) := check g b in
    let n := nc + na + nb
      + match tc with Some t => err (is_integer t || match t with TPointer _ => true | _ => false end) | None => 0 end in
    match ta, tb with
    | Some t, Some u => if compat g t u then (Some t, n) else (None, S n)
    | _, _ => (None, n)
    end
  end
with check_args (g : env) (ps : list ty) (l : args) : nat :=              (* 587-649 *)
  match l with
  | ANil => 0
  | ACons e l => let '(t, n) := check g e in n + place g (hd_error ps) t + check_args g (tl ps) l
  end.

(** 1130-1141 and alike: a condition *)
Definition cond (g : env) (e : exp) : nat :=
  let '(t, n) := check g e in
  n + match t with
      | Some t => let r := resolve t in err (is_integer r || is_ptr r)
      | None => 0
      end.
(** tc_add_symbol, 62-77 *)
Definition declare (g : env) (x : nat) (t : option ty) : env :=
  mkenv (fun y => if y =? x then t else vars g y) (funs g) (aliases g) (returns g).
Definition ends (s : stmt) : bool := match s with SReturn _ | SBreak => true | _ => false end.

(** check_node on statements: the scope after it and the number of errors; [check_block g dead b]: [dead] after a return, break,
    continue or goto *)
Fixpoint check_stmt (g : env) (s : stmt) : env * nat :=
  match s with
  | SExp e => (g, snd (check g e))
  | SLet x t e =>                                                          (* 798-832 *)
    let '(te, n) := check g e in
    (declare g x (match t with Some _ => t | None => te end), n + place g t te)
  | SIf c a b => (g, cond g c + check_block g false a + check_block g false b)
  | SWhile c b => (g, cond g c + check_block g false b)
  | SReturn e =>                                                           (* 1104-1128 *)
    (g, match e with Some e => snd (check g e) + err (returns g) | None => err (negb (returns g)) end)
  | SBreak => (g, 0)
  | SBlock b => (g, check_block g false b)
  end
with check_block (g : env) (dead : bool) (b : block) : nat :=             (* 652-683 *)
  match b with
  | BNil => 0
  | BCons s b => let '(g', n) := check_stmt g s in (if dead then 1 else 0) + n + check_block g' (ends s) b
  end.
(** check_program, 1637-1665: the program passes when there are no errors *)
Definition passes (g : env) (b : block) : bool := check_block g false b =? 0.
