(** Model of the constant evaluator, src/analysis/const_fold.c, and of the places that
    store and use its result (parser_decl.c, parser_type.c, parser_expr.c, codegen.c). *)
From Verif Require Import Common.
Local Open Scope Z_scope.

(** The expression nodes the evaluator distinguishes (const_fold.c:12-131): integer
    literals (unsigned long long), other literals, variables, binary and unary
    operators by their text, anything else. *)
Inductive expr :=
| Lit (v : N) | OtherLit | Var (x : bytes)
| Bin (op : bytes) (l r : expr) | Un (op : bytes) (e : expr) | Other.

(** What the parser context knows: find_symbol_entry restricted to is_const_value, and
    find_enum_variant's tag_id; both are C ints. *)
Record ctx := mkctx { const_int_val : bytes -> option Z; tag_id : bytes -> option Z }.

(** Conversions to long long and to int (two's complement, as gcc and clang do). *)
Definition wrap (w v : Z) : Z := (v + 2 ^ (w - 1)) mod 2 ^ w - 2 ^ (w - 1).
Definition to_ll := wrap 64.
Definition to_int := wrap 32.

(** A long long result; signed overflow is undefined. *)
Definition ll (v : Z) : res (option Z) :=
  if (- 2 ^ 63 <=? v) && (v <? 2 ^ 63) then Ok (Some v) else UB.

(** const_fold.c:52-101; [Ok None]: return 0 *)
Definition eval_bin (op : bytes) (a b : Z) : res (option Z) :=
  if beq_bytes op (bs "+") then ll (a + b)
  else if beq_bytes op (bs "-") then ll (a - b)
  else if beq_bytes op (bs "*") then ll (a * b)
  else if beq_bytes op (bs "/") then (if b =? 0 then Ok None else ll (Z.quot a b))
  else if beq_bytes op (bs "%") then
    (if b =? 0 then Ok None
     else if (a =? - 2 ^ 63) && (b =? -1) then UB else Ok (Some (Z.rem a b)))
  else if beq_bytes op (bs "<<") then
    (if (0 <=? b) && (b <? 64) && (0 <=? a) then ll (a * 2 ^ b) else UB)
  else if beq_bytes op (bs ">>") then
    (if (0 <=? b) && (b <? 64) then Ok (Some (Z.shiftr a b)) else UB)
  else if beq_bytes op (bs "&") then Ok (Some (Z.land a b))
  else if beq_bytes op (bs "|") then Ok (Some (Z.lor a b))
  else if beq_bytes op (bs "^") then Ok (Some (Z.lxor a b))
  else Ok None.

(** const_fold.c:112-127 *)
Definition eval_un (op : bytes) (a : Z) : res (option Z) :=
  if beq_bytes op (bs "-") then ll (- a)
  else if beq_bytes op (bs "+") then Ok (Some a)
  else if beq_bytes op (bs "~") then Ok (Some (Z.lnot a))
  else Ok None.

(** const_fold.c:5-135 *)
Fixpoint eval (c : ctx) (e : expr) : res (option Z) :=
  match e with
  | Lit v => Ok (Some (to_ll (Z.of_N v)))
  | OtherLit => Ok None
  | Var x =>
    match const_int_val c x with
    | Some v => Ok (Some v)
    | None => match tag_id c x with Some t => Ok (Some t) | None => Ok None end
    end
  | Bin op l r =>
    do a <- eval c l;
    match a with
    | None => Ok None
    | Some a => do b <- eval c r; match b with None => Ok None | Some b => eval_bin op a b end
    end
  | Un op e => do a <- eval c e; match a with None => Ok None | Some a => eval_un op a end
  | Other => Ok None
  end.

(** parser_type.c:698-712, 914-924: the size of an array type; [Ok None]: compile error *)
Definition array_size (c : ctx) (e : expr) : res (option Z) :=
  do v <- eval c e; Ok (option_map to_int v).

(** parser_decl.c:866-876: def x = e records the value as an int *)
Definition def_const (c : ctx) (x : bytes) (e : expr) : res ctx :=
  do v <- eval c e;
  match v with
  | None => Ok c
  | Some v => Ok (mkctx (fun y => if beq_bytes y x then Some (to_int v) else const_int_val c y) (tag_id c))
  end.

(** parser_expr.c:3533-3541: a use of a def becomes this literal (int converted to
    unsigned long long) *)
Definition use_of_def (c : ctx) (x : bytes) : option expr :=
  option_map (fun v => Lit (Z.to_N (v mod 2 ^ 64))) (const_int_val c x).

(** parser_decl.c:731-740: let x = <integer literal> records the value, whether or not
    x can be assigned later *)
Definition let_const (c : ctx) (x : bytes) (init : expr) : ctx :=
  match init with
  | Lit v => mkctx (fun y => if beq_bytes y x then Some (to_int (Z.of_N v)) else const_int_val c y) (tag_id c)
  | _ => c
  end.
