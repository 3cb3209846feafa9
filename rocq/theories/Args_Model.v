(** Model of the arguments of a call: how the default of a parameter is kept
    (src/parser/parser_utils.c:195-345 ast_to_string and 4180-4196), how the arguments of a
    call are collected, defaults filled in and names checked (src/parser/parser_expr.c:52-105
    and 2955-3232, 3326-3440), and in which order they are emitted
    (src/codegen/codegen.c:778-793).

    Simplifications.  Expressions and the parser are those of Pratt_Model.v (integer
    literals, names, operators, casts, calls, indexing, members, conditionals and "?");
    string, character, float and struct literals are left out.  Text is a list of tokens
    with its length: the printer never puts two tokens next to each other that the lexer
    would join, since every compound operand is in parentheses ([printable] in
    Args_Spec.v leaves out members of numbers).  A text longer than the 4096 byte buffer
    is undefined behaviour ([POver]); a call whose text is cut at one of the length tests
    (callee 256, arguments 4090) is [PCut].  Move marking and casts to trait objects are
    left out (Move_Model.v has the former). *)
From Verif Require Import Common Pratt_Model.
Local Open Scope nat_scope.

(** * The text of a default *)
Inductive ptext := PText (ts : list tok) (n : nat) | POver | PCut.
Definition pbind (p : ptext) (k : list tok -> nat -> ptext) : ptext :=
  match p with PText ts n => k ts n | POver => POver | PCut => PCut end.
(** sprintf into the 4096 byte buffer *)
Definition put (ts : list tok) (n : nat) : ptext := if n <? 4096 then PText ts n else POver.

(** token.c:567-643: the token of the operator of a binary node *)
Definition op_token (o : binop) : tok :=
  match o with
  | BAssign => TOp OAssign false
  | BOrOr => TOp OOrOr false | BQQ => TQQ | BAndAnd => TOp OAndAnd false
  | BEq => TOp OEq false | BNe => TOp ONe false | BLe => TOp OLe false | BGe => TOp OGe false
  | BLt => TLangle | BGt => TRangle
  | BOr => TOp OOr false | BXor => TOp OXor false | BAnd => TOp OAnd false | BShl => TOp OShl false | BShr => TOp OShr false
  | BAdd => TOp OAdd false | BSub => TOp OSub false | BMul => TOp OMul false | BDiv => TOp ODiv false | BRem => TOp ORem false
  end.
Definition prefix_token (u : unop) : tok :=
  match u with
  | UNeg => TOp OSub false | UNot => TOp ONot false | UDeref => TOp OMul false | UAddr => TOp OAnd false
  | UTilde => TOp OTilde false | UAddrAddr => TOp OAndAnd false | UInc => TOp OInc false | UDec => TOp ODec false
  end.

Section Text.
(** The length of the text of a token; the name "_post" (the operator of a postfix
    increment is "_post++", parser_expr.c:5170-5200) *)
Variable len : tok -> nat.
Variable post : N.

(** parser_utils.c:271-297: the arguments of a call, after the buffer has [n] bytes *)
Fixpoint args_text (texts : list ptext) (first : bool) (n : nat) : ptext :=
  match texts with
  | [] => PText [] n
  | p :: r =>
    pbind p (fun ta na =>
      let n1 := if first then n else n + 2 in
      if n1 + na <? 4090
      then pbind (args_text r false (n1 + na))
             (fun tr nr => PText ((if first then [] else [TComma]) ++ ta ++ tr) nr)
      else PCut)
  end.

(** parser_utils.c:195-345; a conditional and a "?" fall into the default case: no text *)
Fixpoint ast_text (e : expr) : ptext :=
  match e with
  | EInt n => put [TInt n] (len (TInt n))
  | EVar x => put [TVar x] (len (TVar x))
  | EBin o l r =>
    pbind (ast_text l) (fun tl nl => pbind (ast_text r) (fun tr nr =>
      put (TLparen :: tl ++ op_token o :: tr ++ [TRparen]) (nl + len (op_token o) + nr + 4)))
  | EUn u a => pbind (ast_text a) (fun ta na => put (TLparen :: prefix_token u :: ta ++ [TRparen]) (na + len (prefix_token u) + 2))
  | EPost i a =>
    pbind (ast_text a) (fun ta na =>
      put (TLparen :: TVar post :: TOp (if i then OInc else ODec) false :: ta ++ [TRparen]) (na + 9))
  | ECast t k a =>
    pbind (ast_text a) (fun ta na =>
      put (TLparen :: TLparen :: TVar t :: repeat (TOp OMul false) k ++ TRparen :: ta ++ [TRparen])
          (na + len (TVar t) + k + 4))
  | ECall f args =>
    pbind (ast_text f) (fun tf nf =>
      if nf + 1 <? 256
      then pbind (args_text (map ast_text args) true (nf + 1)) (fun ta na => put (tf ++ TLparen :: ta ++ [TRparen]) (na + 1))
      else PCut)
  | EMember _ a f => pbind (ast_text a) (fun ta na => put (ta ++ [TOp ODot false; f]) (na + len f + 1))
  | EIndex a i =>
    pbind (ast_text a) (fun ta na => pbind (ast_text i) (fun ti ni =>
      put (ta ++ TLbracket :: ti ++ [TRbracket]) (na + ni + 2)))
  | ETern _ _ _ | ETry _ => PText [] 0
  end.

(** * Calls *)
(** A parameter with the default the programmer wrote; an argument of a call *)
Record param := { p_name : N; p_default : option expr }.
Record arg := { a_name : option N; a_value : expr }.

(** What the parser knows of the function when it comes to the call.
    [Complete]: its definition has been parsed (parsed_funcs_list, parser_decl.c:224-227).
    [Signature]: only its signature is registered: inside its own body
    (parser_decl.c:142-147 against 226), or it is declared in an impl block
    (parser_struct.c:431, 471, 720, 756), which never enters parsed_funcs_list.
    [Unknown]: it is defined further down, generic, or called through a value. *)
Inductive known := Complete | Signature | Unknown.

Inductive outcome := Passed (l : list expr) | Rejected | Broken.

Variable type_list : list tok -> bool.

(** parser_expr.c:3133-3137: the kept text of a default is parsed again at the call; what
    follows the expression is ignored *)
Definition default_at_call (d : expr) : outcome :=
  match ast_text d with
  | PText ts _ => match parse_expression type_list ts with Got (e, _) => Passed [e] | Err => Rejected | _ => Broken end
  | _ => Broken
  end.

(** parser_expr.c:3131-3222: the defaults of the parameters from [ps] on *)
Fixpoint fill_defaults (ps : list param) : outcome :=
  match ps with
  | [] => Passed []
  | p :: r =>
    match p_default p with
    | None => fill_defaults r
    | Some d =>
      match default_at_call d with
      | Passed l => match fill_defaults r with Passed l' => Passed (l ++ l') | o => o end
      | o => o
      end
    end
  end.

(** parser_expr.c:66-105 *)
Fixpoint validate (ps : list param) (args : list arg) : bool :=
  match ps, args with
  | p :: ps', a :: args' =>
    match a_name a with
    | None => validate ps' args'
    | Some x => (x =? p_name p)%N && validate ps' args'
    end
  | _, _ => true
  end.

(** parser_expr.c:2955-3232 with a signature, 3326-3440 without; the arguments in the order
    codegen.c:778-793 emits them *)
Definition call (k : known) (ps : list param) (args : list arg) : outcome :=
  match k with
  | Unknown => Passed (map a_value args)
  | _ =>
    match fill_defaults (skipn (length args) ps) with
    | Passed l =>
      match k with
      | Complete => if validate ps args then Passed (map a_value args ++ l) else Rejected
      | _ => Passed (map a_value args ++ l)
      end
    | o => o
    end
  end.
End Text.
