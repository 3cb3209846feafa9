(** Model of the expression parser, src/parser/parser_expr.c: get_token_precedence,
    parse_primary and parse_expr_prec, on the sequence of tokens (Lexer_Model.v has the
    lexer).

    Simplifications.  A [TVar] is an identifier that is none of the words parse_primary
    treats specially (fn, if, match, typeof, sizeof, va_*, readln); a [TInt] is an
    integer literal.  Operands have no types with overloaded operators or methods, and
    symbol-table effects (move tracking, warnings) are left out: they do not influence
    how operators group.  Wherever the code goes on to something that is not modelled
    (strings, lambdas, generics, tuples, slices, struct literals, named arguments,
    macros, paths) the model answers [Other].  Whether the tokens after a "<" read as
    types followed by ">" (the speculative parse at 2296-2318 and 6188-6213) is the
    parameter [type_list]. *)
From Verif Require Import Common.
Local Open Scope nat_scope.

(** The texts of TOK_OP tokens, token.c:567-643 *)
Inductive opk :=
| OAssign | OAddEq | OSubEq | OMulEq | ODivEq | ORemEq | OOrEq | OAndEq | OXorEq | OShlEq | OShrEq
| OOrOr | OAndAnd | OOr | OXor | OAnd | OShl | OShr | OEq | ONe | OLe | OGe
| OAdd | OSub | OMul | ODiv | ORem | OInc | ODec | ODot | ONot | OTilde | OOtherOp.

(** Tokens; [nl]: the token is on a later line than the end of the token before it *)
Inductive tok :=
| TInt (n : N) | TVar (x : N) | TOp (o : opk) (nl : bool)
| TLangle | TRangle | TAnd | TOr | TQQ | TQQEq | TPipe | TQ | TQDot | TArrow | TFatArrow
| TLparen | TRparen | TLbracket | TRbracket | TLbrace | TRbrace | TComma | TColon | TSemi | TDotdot | TDcolon
| TOther.

Inductive unop := UNeg | UNot | UDeref | UAddr | UTilde | UAddrAddr | UInc | UDec.
Inductive binop :=
| BAssign
| BOrOr | BQQ | BAndAnd | BEq | BNe | BLe | BGe | BLt | BGt
| BOr | BXor | BAnd | BShl | BShr | BAdd | BSub | BMul | BDiv | BRem.

(** The nodes built *)
Inductive expr :=
| EInt (n : N) | EVar (x : N)
| EUn (u : unop) (e : expr)                 (* NODE_EXPR_UNARY *)
| EPost (inc : bool) (e : expr)             (* "_post++", "_post--" *)
| ECast (ty : N) (stars : nat) (e : expr)   (* NODE_EXPR_CAST *)
| EBin (o : binop) (l r : expr)             (* NODE_EXPR_BINARY *)
| ETern (c a b : expr)                      (* NODE_TERNARY *)
| ETry (e : expr)                           (* NODE_TRY *)
| ECall (f : expr) (args : list expr)       (* NODE_EXPR_CALL *)
| EIndex (a i : expr)                       (* NODE_EXPR_INDEX *)
| EMember (kind : tok) (e : expr) (f : tok) (* NODE_EXPR_MEMBER; kind: ".", "->" or "?." *).

Inductive out (A : Type) := Got (a : A) | Err | Other | Fuel.
Arguments Got {A}. Arguments Err {A}. Arguments Other {A}. Arguments Fuel {A}.
Definition obind {A B} (x : out A) (k : A -> out B) : out B :=
  match x with Got a => k a | Err => Err | Other => Other | Fuel => Fuel end.
Notation "'let*' p ':=' x 'in' k" := (obind x (fun p => k)) (at level 200, p pattern, right associativity).

(** parser.h:15-26 *)
Definition PREC_NONE := 0. Definition PREC_ASSIGNMENT := 1. Definition PREC_TERNARY := 2.
Definition PREC_OR := 3. Definition PREC_AND := 4. Definition PREC_EQUALITY := 5.
Definition PREC_COMPARISON := 6. Definition PREC_TERM := 7. Definition PREC_FACTOR := 8.
Definition PREC_UNARY := 9. Definition PREC_CALL := 10.

(** parser_expr.c:349-487 *)
Definition get_token_precedence (t : tok) : nat :=
  match t with
  | TQ => PREC_CALL
  | TArrow => PREC_CALL
  | TQDot => PREC_CALL
  | TQQ => PREC_OR
  | TOr => PREC_OR
  | TAnd => PREC_AND
  | TQQEq => PREC_ASSIGNMENT
  | TPipe => PREC_TERM
  | TLangle | TRangle => PREC_COMPARISON
  | TOp o _ =>
    match o with
    | OAssign | OAddEq | OSubEq | OMulEq | ODivEq | ORemEq | OOrEq | OAndEq | OXorEq | OShlEq | OShrEq => PREC_ASSIGNMENT
    | OOrOr => PREC_OR
    | OAndAnd => PREC_AND
    | OOr | OXor | OAnd | OShl | OShr => PREC_TERM
    | OEq | ONe => PREC_EQUALITY
    | OLe | OGe => PREC_COMPARISON
    | OAdd | OSub => PREC_TERM
    | OMul | ODiv | ORem => PREC_FACTOR
    | ODot => PREC_CALL
    | OInc | ODec | ONot | OTilde | OOtherOp => PREC_NONE
    end
  | TLbracket | TLparen => PREC_CALL
  | _ => PREC_NONE
  end.

(** parser_expr.c:4932-4934: the prefix operators *)
Definition prefix_op (o : opk) : option unop :=
  match o with
  | OSub => Some UNeg | ONot => Some UNot | OMul => Some UDeref | OAnd => Some UAddr | OTilde => Some UTilde
  | OAndAnd => Some UAddrAddr | OInc => Some UInc | ODec => Some UDec | _ => None
  end.

(** parser_expr.c:6385-6404: the operator of a binary node *)
Definition infix_op (t : tok) : option binop :=
  match t with
  | TLangle => Some BLt | TRangle => Some BGt | TAnd => Some BAndAnd | TOr => Some BOrOr
  | TQQ => Some BQQ
  | TOp o _ =>
    match o with
    | OAssign => Some BAssign
    | OOrOr => Some BOrOr | OAndAnd => Some BAndAnd | OOr => Some BOr | OXor => Some BXor | OAnd => Some BAnd
    | OShl => Some BShl | OShr => Some BShr | OEq => Some BEq | ONe => Some BNe | OLe => Some BLe | OGe => Some BGe
    | OAdd => Some BAdd | OSub => Some BSub | OMul => Some BMul | ODiv => Some BDiv | ORem => Some BRem
    | _ => None
    end
  | _ => None
  end.

(** parser_expr.c:6508-6535: the operator without its final "=" of a compound assignment *)
Definition compound_op (t : tok) : option binop :=
  match t with
  | TQQEq => Some BQQ
  | TOp o _ =>
    match o with
    | OAddEq => Some BAdd | OSubEq => Some BSub | OMulEq => Some BMul | ODivEq => Some BDiv | ORemEq => Some BRem
    | OOrEq => Some BOr | OAndEq => Some BAnd | OXorEq => Some BXor | OShlEq => Some BShl | OShrEq => Some BShr
    | _ => None
    end
  | _ => None
  end.

(** parser_expr.c:6327-6605: the binary node; l op= r becomes l = l op r, with the node l
    in both places *)
Definition mk_binary (t : tok) (l r : expr) : option expr :=
  match compound_op t with
  | Some o => Some (EBin BAssign l (EBin o l r))
  | None => match infix_op t with Some o => Some (EBin o l r) | None => None end
  end.

(** parser_expr.c:5159-5165: an operator that ends the expression by its position *)
Definition newline_break (t : tok) : bool :=
  match t with
  | TOp o true => match o with OMul | OAnd | OAdd | OSub => true | _ => false end
  | _ => false
  end.

(** parser_expr.c:5301-5320: the token after "?" makes it a conditional ([TOther] may be a
    string, a float or a character; then it does, too) *)
Definition starts_ternary (ts : list tok) : bool :=
  match ts with
  | TInt _ :: _ | TVar _ :: _ | TLparen :: _ | TLbrace :: _ | TOther :: _ => true
  | TOp o _ :: _ => match o with OSub | ONot | OMul | OAnd | OTilde => true | _ => false end
  | _ => false
  end.

(** parser_expr.c:5354-5376: x |> f(a) is f(x, a), x |> f is f(x) *)
Definition pipe (l r : expr) : expr :=
  match r with ECall f args => ECall f (l :: args) | _ => ECall r [l] end.

Definition is_arrow (t : tok) : bool := match t with TArrow | TFatArrow => true | _ => false end.
Definition arrow_next (ts : list tok) : bool := match ts with t :: _ => is_arrow t | [] => false end.

(** parser_expr.c:1943-1977: after "x :", is there an arrow before the end of the
    statement?  (The count of angle brackets is left out: [true] leads to [Other].) *)
Fixpoint arrow_scan (ts : list tok) : bool :=
  match ts with
  | [] => false
  | t :: r =>
    match t with
    | TSemi | TComma | TLbrace | TRbrace | TOp OAssign _ => false
    | TArrow | TFatArrow => true
    | _ => arrow_scan r
    end
  end.

(** parser_expr.c:3588-3644: a parenthesis that starts the parameter list of a lambda.
    [skip]: inside the type of a parameter. *)
Fixpoint lambda_look (first skip : bool) (ts : list tok) : bool :=
  match ts with
  | [] => false
  | t :: r =>
    if skip then
      match t with
      | TComma => lambda_look false false r
      | TRparen => arrow_next r
      | _ => lambda_look false true r
      end
    else
      match t with
      | TRparen => first && arrow_next r
      | TVar _ =>
        match r with
        | TColon :: r' => lambda_look false true r'
        | TComma :: r' => lambda_look false false r'
        | TRparen :: r' => arrow_next r'
        | _ => false
        end
      | _ => false
      end
  end.

(** parser_expr.c:3686-3717: "x * ... * )" and a token that can follow a cast;
    the number of stars and what follows the parenthesis *)
Fixpoint cast_stars (ts : list tok) (n : nat) : option (nat * list tok) :=
  match ts with
  | TOp OMul _ :: r => cast_stars r (S n)
  | TRparen :: r => Some (n, r)
  | _ => None
  end.
Definition starts_cast_operand (ts : list tok) : bool :=
  match ts with
  | TInt _ :: _ | TVar _ :: _ | TLparen :: _ | TOther :: _ => true
  | TOp o _ :: _ => match o with OAnd | OMul | ONot => true | _ => false end
  | _ => false
  end.
Definition cast_look (ts : list tok) : option (N * nat * list tok) :=
  match ts with
  | TVar x :: r =>
    match cast_stars r 0 with
    | Some (n, r') => if starts_cast_operand r' then Some (x, n, r') else None
    | None => None
    end
  | _ => None
  end.

Section Parser.
Variable type_list : list tok -> bool.

(** parser_expr.c:1933-2530: what follows an identifier and makes it something else *)
Definition var_other (r : list tok) : bool :=
  match r with
  | TOp ONot _ :: _ => true
  | TColon :: r' => arrow_scan r'
  | TArrow :: _ | TFatArrow :: _ => true
  | TDcolon :: _ => true
  | TLangle :: r' => type_list r'
  | TLbrace :: _ => true
  | _ => false
  end.

(** parser_expr.c:4932-4950, 5150-5156: a prefix operator or a primary, then the loop.
    The mutually recursive functions are given one by one as bodies, with the calls as
    parameters, and tied together below. *)
Definition head_op (ts : list tok) : option (opk * list tok) :=
  match ts with TOp o _ :: r => Some (o, r) | _ => None end.
Definition parse_body (parse : nat -> list tok -> out (expr * list tok)) (primary : list tok -> out (expr * list tok))
    (loop : nat -> expr -> list tok -> out (expr * list tok)) (min : nat) (ts : list tok) : out (expr * list tok) :=
  match head_op ts with
  | Some (o, r) =>
    match prefix_op o with
    | Some u => let* (e, r1) := parse PREC_UNARY r in loop min (EUn u e) r1
    | None => match o with ODot => Other | _ => Err end
    end
  | None => let* (e, r1) := primary ts in loop min e r1
  end.

(** parser_expr.c:1624-4260: the ways a primary starts *)
Inductive start_kind := SInt (n : N) | SVar (x : N) | SParen | SOther | SErr.
Definition start_of (t : tok) : start_kind :=
  match t with
  | TInt n => SInt n
  | TVar x => SVar x
  | TLparen => SParen
  | TLbracket | TLbrace | TOther => SOther
  | _ => SErr
  end.
Definition path_next (ts : list tok) : bool := match ts with TVar _ :: TDcolon :: _ => true | _ => false end.
Definition primary_body (parse : nat -> list tok -> out (expr * list tok))
    (suffixes : expr -> list tok -> out (expr * list tok)) (ts : list tok) : out (expr * list tok) :=
  match ts with
  | [] => Err
  | t :: r =>
    match start_of t with
    | SInt n => suffixes (EInt n) r
    | SVar x => if var_other r then Other else suffixes (EVar x) r
    | SParen =>
      if lambda_look true false r then Other
      else if path_next r then Other
      else match cast_look r with
      | Some (x, n, r') => let* (e, r1) := parse PREC_UNARY r' in Got (ECast x n e, r1)
      | None =>
        let* (e, r1) := parse PREC_NONE r in
        match r1 with
        | TRparen :: r2 => suffixes e r2
        | TComma :: _ => Other
        | _ => Err
        end
      end
    | SOther => Other
    | SErr => Err
    end
  end.

(** parser_expr.c:4029-4257: calls and indexing directly after a primary *)
Definition suffixes_body (parse : nat -> list tok -> out (expr * list tok))
    (suffixes : expr -> list tok -> out (expr * list tok)) (arguments : list tok -> out (list expr * list tok))
    (e : expr) (ts : list tok) : out (expr * list tok) :=
  match ts with
  | TLparen :: r => let* (a, r1) := arguments r in suffixes (ECall e a) r1
  | TLbracket :: r =>
    let* (i, r1) := parse PREC_NONE r in
    match r1 with TRbracket :: r2 => suffixes (EIndex e i) r2 | _ => Err end
  | _ => Got (e, ts)
  end.

(** parser_expr.c:4036-4110, 5553-5640: arguments up to and with the ")" *)
Definition arguments_body (arguments1 : list tok -> out (list expr * list tok)) (ts : list tok) : out (list expr * list tok) :=
  match ts with
  | TRparen :: r => Got ([], r)
  | _ => arguments1 ts
  end.
Definition named_arg (ts : list tok) : bool := match ts with TVar _ :: TColon :: _ => true | _ => false end.
Definition arguments1_body (parse : nat -> list tok -> out (expr * list tok))
    (arguments1 : list tok -> out (list expr * list tok)) (ts : list tok) : out (list expr * list tok) :=
  if named_arg ts then Other
  else
    let* (a, r1) := parse PREC_NONE ts in
    match r1 with
    | TComma :: r2 => let* (l, r3) := arguments1 r2 in Got (a :: l, r3)
    | TRparen :: r2 => Got ([a], r2)
    | _ => Err
    end.

(** parser_expr.c:5157-6605: the loop of parse_expr_prec; the tests on the token *)
Inductive loop_kind := LInc | LDec | LArrow | LQ | LPipe | LCall | LIndex | LDot | LBinary.
Definition loop_kind_of (t : tok) : loop_kind :=
  match t with
  | TOp OInc _ => LInc
  | TOp ODec _ => LDec
  | TArrow | TQDot => LArrow
  | TQ => LQ
  | TPipe => LPipe
  | TLparen => LCall
  | TLbracket => LIndex
  | TOp ODot _ => LDot
  | _ => LBinary
  end.
Definition field (ts : list tok) : option (tok * list tok) :=
  match ts with
  | TVar x :: r => Some (TVar x, r)
  | TInt n :: r => Some (TInt n, r)
  | _ => None
  end.
Definition generic_next (ts : list tok) : bool := match ts with TLangle :: r => type_list r | _ => false end.
Definition dotdot_next (ts : list tok) : bool := match ts with TDotdot :: _ => true | _ => false end.
Definition stop (min : nat) (t : tok) : bool :=
  (get_token_precedence t =? PREC_NONE) || (get_token_precedence t <? min).
Definition loop_body (parse : nat -> list tok -> out (expr * list tok)) (arguments : list tok -> out (list expr * list tok))
    (loop : nat -> expr -> list tok -> out (expr * list tok))
    (min : nat) (lhs : expr) (ts : list tok) : out (expr * list tok) :=
  match ts with
  | [] => Got (lhs, [])
  | t :: r =>
    if newline_break t then Got (lhs, ts)
    else match loop_kind_of t with
    | LInc => loop min (EPost true lhs) r
    | LDec => loop min (EPost false lhs) r
    | k =>
      if stop min t then Got (lhs, ts)
      else match k with
      | LArrow => match field r with Some (x, r1) => loop min (EMember t lhs x) r1 | None => Err end
      | LQ =>
        if starts_ternary r then
          if PREC_TERNARY <? min then Got (lhs, ts)
          else
            let* (a, r1) := parse PREC_NONE r in
            match r1 with
            | TColon :: r2 => let* (b, r3) := parse PREC_TERNARY r2 in loop min (ETern lhs a b) r3
            | _ => Err
            end
        else if PREC_CALL <? min then Got (lhs, ts)
        else loop min (ETry lhs) r
      | LPipe => let* (b, r1) := parse (S (get_token_precedence t)) r in loop min (pipe lhs b) r1
      | LCall => let* (a, r1) := arguments r in loop min (ECall lhs a) r1
      | LIndex =>
        if dotdot_next r then Other
        else
          let* (i, r1) := parse PREC_NONE r in
          match r1 with
          | TRbracket :: r2 => loop min (EIndex lhs i) r2
          | TDotdot :: _ => Other
          | _ => Err
          end
      | LDot =>
        match field r with
        | Some (x, r1) => if generic_next r1 then Other else loop min (EMember t lhs x) r1
        | None => Err
        end
      | _ =>
        let* (b, r1) := parse (S (get_token_precedence t)) r in
        match mk_binary t lhs b with Some e => loop min e r1 | None => Err end
      end
    end
  end.

Fixpoint parse (fuel : nat) : nat -> list tok -> out (expr * list tok) :=
  match fuel with
  | O => fun _ _ => Fuel
  | S f => parse_body (parse f) (primary f) (loop f)
  end
with primary (fuel : nat) : list tok -> out (expr * list tok) :=
  match fuel with
  | O => fun _ => Fuel
  | S f => primary_body (parse f) (suffixes f)
  end
with suffixes (fuel : nat) : expr -> list tok -> out (expr * list tok) :=
  match fuel with
  | O => fun _ _ => Fuel
  | S f => suffixes_body (parse f) (suffixes f) (arguments f)
  end
with arguments (fuel : nat) : list tok -> out (list expr * list tok) :=
  match fuel with
  | O => fun _ => Fuel
  | S f => arguments_body (arguments1 f)
  end
with arguments1 (fuel : nat) : list tok -> out (list expr * list tok) :=
  match fuel with
  | O => fun _ => Fuel
  | S f => arguments1_body (parse f) (arguments1 f)
  end
with loop (fuel : nat) : nat -> expr -> list tok -> out (expr * list tok) :=
  match fuel with
  | O => fun _ _ _ => Fuel
  | S f => loop_body (parse f) (arguments f) (loop f)
  end.

(** parser_expr.c:344-347; the fuel is enough for any input ([C30_total] in Pratt_Props.v) *)
Definition parse_expression (ts : list tok) : out (expr * list tok) :=
  parse (4 * length ts + 2) PREC_NONE ts.
End Parser.
