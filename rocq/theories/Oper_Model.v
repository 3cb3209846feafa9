(** Model of operators and methods on structs: the choice of the method
    (get_operator_method, parser_expr.c:4339-4411; 5394-5430, 6704-6752), the passing of the
    operands (4965-5025, 5480-5530, 6758-6846), compound assignment (6508-6604), the C code
    (codegen.c:258-343, 1393-1400, 1420-1425, 1788-1796) and what that code does.

    Simplifications: types are numbers, structs by name and pointers to structs, without
    generics and aliases; a method call by name has no arguments besides the object; the
    target of a compound assignment is a variable; C evaluates arguments from left to right;
    constants, arithmetic and the bodies of functions are arbitrary. *)
From Verif Require Import Common.
Local Open Scope nat_scope.

Inductive ty := TNum | TObj (s : bytes) | TPtr (s : bytes).
(** A function: does each parameter take a pointer; its result *)
Record sig := { params : list bool; ret : ty }.

(** Expressions as written; [SConst true] is a struct initializer, [SConst false] a literal *)
Inductive src :=
| SVar (x : bytes) (t : ty) | SConst (init : bool) (t : ty) (txt : bytes) | SCond (c a b : src)
| SUn (op : bytes) (a : src) | SBin (op : bytes) (a b : src) | SMethod (m : bytes) (a : src)
| SAssign (op : bytes) (x : bytes) (t : ty) (b : src).

(** The syntax tree after parsing; a binary node carries the type of its left operand *)
Inductive tree :=
| Var (x : bytes) | Const (init : bool) (t : ty) (txt : bytes) | Cond (c a b : tree)
| Un (op : bytes) (a : tree) | Bin (op : bytes) (t : ty) (a b : tree) | Call1 (f : bytes) (a : tree)
| Call2 (f : bytes) (a b : tree).

Fixpoint find {A} (k : bytes) (l : list (bytes * A)) : option A :=
  match l with [] => None | (k', v) :: l => if beq_bytes k' k then Some v else find k l end.

(** parser_expr.c:4339-4411 *)
Definition operator_method (op : bytes) : option bytes :=
  find op [(bs "+", bs "add"); (bs "-", bs "sub"); (bs "*", bs "mul"); (bs "/", bs "div"); (bs "%", bs "rem");
           (bs "==", bs "eq"); (bs "!=", bs "neq"); (bs "<", bs "lt"); (bs ">", bs "gt"); (bs "<=", bs "le"); (bs ">=", bs "ge");
           (bs "&", bs "bitand"); (bs "|", bs "bitor"); (bs "^", bs "bitxor"); (bs "<<", bs "shl"); (bs ">>", bs "shr")].
(** parser_expr.c:4950-4962 *)
Definition unary_method (op : bytes) : option bytes :=
  find op [(bs "-", bs "neg"); (bs "!", bs "not"); (bs "~", bs "bitnot")].
Definition is_equality (op : bytes) : bool := beq_bytes op (bs "==") || beq_bytes op (bs "!=").
Definition is_comparison (op : bytes) : bool :=
  is_equality op || beq_bytes op (bs "<") || beq_bytes op (bs ">") || beq_bytes op (bs "<=") || beq_bytes op (bs ">=").

(** parser_expr.c:4413-4580 *)
Definition struct_of (t : ty) : option (bytes * bool) :=
  match t with TNum => None | TObj s => Some (s, false) | TPtr s => Some (s, true) end.
Definition is_pointer (t : ty) : bool := match t with TPtr _ => true | _ => false end.

Section program.
Variable funcs : list (bytes * sig).
(** The implementations of traits, (struct, trait), the latest first *)
Variable impls : list (bytes * bytes).

(** char mangled[256]; sprintf(mangled, "%s__%s", ...) *)
Definition mangle (s m : bytes) : res bytes :=
  let n := s ++ bs "__" ++ m in if length n <? 256 then Ok n else UB.
(** parser_expr.c:6726-6752: char trait_mangled[512], copied to mangled *)
Fixpoint trait_loop (l : list (bytes * bytes)) (s m : bytes) : res (option (bytes * sig)) :=
  match l with
  | [] => Ok None
  | (st, tr) :: l =>
    if beq_bytes st s then
      let n := firstn 511 (s ++ bs "__" ++ tr ++ bs "_" ++ m) in
      match find n funcs with
      | Some g => if length n <? 256 then Ok (Some (n, g)) else UB
      | None => trait_loop l s m
      end
    else trait_loop l s m
  end.
Definition resolve (s m : bytes) : res (option (bytes * sig)) :=
  do n <- mangle s m; match find n funcs with Some g => Ok (Some (n, g)) | None => trait_loop impls s m end.
(** Without traits: parser_expr.c:4973-4976, 6552-6557 *)
Definition resolve_direct (s m : bytes) : res (option (bytes * sig)) :=
  do n <- mangle s m; Ok (match find n funcs with Some g => Some (n, g) | None => None end).

(** parser_expr.c:6766-6772; 4991-4995 leaves the initializer out *)
Definition is_rvalue (t : tree) : bool :=
  match t with Call1 _ _ | Call2 _ _ _ | Bin _ _ _ _ | Const true _ _ => true | _ => false end.
Definition is_rvalue_unary (t : tree) : bool :=
  match t with Call1 _ _ | Call2 _ _ _ | Bin _ _ _ _ => true | _ => false end.
Definition address (rvalue : bool) (t : tree) : tree := Un (if rvalue then bs "&_rval" else bs "&") t.
(** The object as first argument: [want] a pointer, [have] a pointer *)
Definition self_arg (want have rvalue : bool) (t : tree) : tree :=
  if want then if have then t else address rvalue t else if have then Un (bs "*") t else t.
(** The right operand, parser_expr.c:6791-6834 *)
Definition rhs_arg (want have : bool) (t : tree) : tree :=
  if want then if have then t else address (is_rvalue t) t else t.

Definition plain_type (op : bytes) (t : ty) : ty := if is_comparison op then TNum else t.

Fixpoint elab (e : src) : res (tree * ty) :=
  match e with
  | SVar x t => Ok (Var x, t)
  | SConst i t txt => Ok (Const i t txt, t)
  | SCond c a b => do '(c', _) <- elab c; do '(a', ta) <- elab a; do '(b', _) <- elab b; Ok (Cond c' a' b', ta)
  | SUn op a =>
    do '(a', ta) <- elab a;
    match unary_method op, struct_of ta with
    | Some m, Some (s, p) =>
      do r <- resolve_direct s m;
      match r with
      | Some (n, g) => Ok (Call1 n (self_arg (hd false (params g)) p (is_rvalue_unary a') a'), ret g)
      | None => Ok (Un op a', ta)
      end
    | _, _ => Ok (Un op a', ta)
    end
  | SBin op a b =>
    do '(a', ta) <- elab a; do '(b', tb) <- elab b;
    let plain := Ok (Bin op ta a' b', plain_type op ta) in
    match operator_method op, struct_of ta with
    | Some m, Some (s, p) =>
      if p && is_equality op && is_pointer tb then plain else
      do r <- resolve s m;
      match r with
      | Some (n, g) =>
        Ok (Call2 n (self_arg (hd false (params g)) p (is_rvalue a') a') (rhs_arg (nth 1 (params g) false) (is_pointer tb) b'), ret g)
      | None => plain
      end
    | _, _ => plain
    end
  | SMethod m a =>
    do '(a', ta) <- elab a;
    match struct_of ta with
    | Some (s, p) =>
      do r <- resolve s m;
      match r with
      | Some (n, g) => if hd false (params g) then Ok (Call1 n (self_arg true p (is_rvalue a') a'), ret g) else Panic
      | None => Panic
      end
    | None => Panic
    end
  | SAssign op x t b =>
    do '(b', tb) <- elab b;
    let plain := Ok (Bin (bs "=") t (Var x) (Bin op t (Var x) b'), t) in
    match operator_method op, struct_of t with
    | Some m, Some (s, p) =>
      do r <- resolve_direct s m;
      match r with
      | Some (n, g) => Ok (Bin (bs "=") t (Var x) (Call2 n (self_arg (hd false (params g)) p false (Var x)) b'), t)
      | None => plain
      end
    | _, _ => plain
    end
  end.

(** codegen.c: the text *)
Definition twice (t : bytes) : bytes := bs "(__typeof__((" ++ t ++ bs "))[]){" ++ t ++ bs "}".
Definition eq_operand (t : tree) (txt : bytes) : bytes := match t with Var _ => bs "&" ++ txt | _ => twice txt end.
Fixpoint emit (t : tree) : bytes :=
  match t with
  | Var x => x
  | Const _ _ txt => txt
  | Cond c a b => bs "((" ++ emit c ++ bs ") ? (" ++ emit a ++ bs ") : (" ++ emit b ++ bs "))"
  | Un op a => if beq_bytes op (bs "&_rval") then twice (emit a) else bs "(" ++ op ++ emit a ++ bs ")"
  | Bin op ty a b =>
    match is_equality op, ty with
    | true, TObj s =>
      let call := s ++ bs "__eq(" ++ eq_operand a (emit a) ++ bs ", " ++ eq_operand b (emit b) ++ bs ")" in
      if beq_bytes op (bs "!=") then bs "(!" ++ call ++ bs ")" else call
    | _, _ => bs "(" ++ emit a ++ bs " " ++ op ++ bs " " ++ emit b ++ bs ")"
    end
  | Call1 f a => f ++ bs "(" ++ emit a ++ bs ")"
  | Call2 f a b => f ++ bs "(" ++ emit a ++ bs ", " ++ emit b ++ bs ")"
  end.

(** Memory: variables and temporaries *)
Inductive loc := LVar (x : bytes) | LTmp (n : nat).
Inductive val := VNum (n : Z) | VObj (n : Z) | VPtr (l : loc).
Record st := { mem : loc -> val; next : nat }.
Definition loc_eqb (a b : loc) : bool :=
  match a, b with LVar x, LVar y => beq_bytes x y | LTmp n, LTmp m => n =? m | _, _ => false end.
Definition store (l : loc) (v : val) (s : st) : st :=
  {| mem := fun k => if loc_eqb k l then v else mem s k; next := next s |}.
(** A new temporary *)
Definition fresh (v : val) (s : st) : val * st :=
  (VPtr (LTmp (next s)), {| mem := mem (store (LTmp (next s)) v s); next := S (next s) |}).

(** The function called, constants and arithmetic on numbers and addresses *)
Variable fn : bytes -> list val -> st -> res (val * st).
Variable constant : bytes -> Z.
Variable arith : bytes -> val -> val -> res val.
Variable arith1 : bytes -> val -> res val.

Definition is_ptr_val (v : val) : bool := match v with VPtr _ => true | _ => false end.
Fixpoint kinds (l : list bool) (vs : list val) : bool :=
  match l, vs with
  | [], [] => true
  | p :: l, v :: vs => Bool.eqb p (is_ptr_val v) && kinds l vs
  | _, _ => false
  end.
(** The C compiler stops at an unknown function and at an argument of the wrong type *)
Definition call (f : bytes) (vs : list val) (s : st) : res (val * st) :=
  match find f funcs with
  | Some g => if kinds (params g) vs then fn f vs s else Panic
  | None => Panic
  end.
Definition const_val (t : ty) (txt : bytes) : val := match t with TObj _ => VObj (constant txt) | _ => VNum (constant txt) end.
Definition is_obj (v : val) : bool := match v with VObj _ => true | _ => false end.
(** C has no operators on structs *)
Definition builtin (op : bytes) (a b : val) : res val := if is_obj a || is_obj b then Panic else arith op a b.
Definition builtin1 (op : bytes) (a : val) : res val := if is_obj a then Panic else arith1 op a.
Definition truth (v : val) : res bool := match v with VNum n => Ok (negb (n =? 0)%Z) | VPtr _ => Ok true | VObj _ => Panic end.
Definition negate (v : val) : res val := do b <- truth v; Ok (VNum (if b then 0 else 1)%Z).

(** What the C code does.  The operand of typeof is not evaluated. *)
Fixpoint eval (t : tree) (s : st) : res (val * st) :=
  match t with
  | Var x => Ok (mem s (LVar x), s)
  | Const _ ty txt => Ok (const_val ty txt, s)
  | Cond c a b => do '(v, s) <- eval c s; do b' <- truth v; if b' then eval a s else eval b s
  | Un op a =>
    if beq_bytes op (bs "&_rval") then do '(v, s) <- eval a s; Ok (fresh v s)
    else if beq_bytes op (bs "&") then
      match a with
      | Var x => Ok (VPtr (LVar x), s)
      | Const true ty txt => Ok (fresh (const_val ty txt) s)         (* a compound literal *)
      | _ => Panic                                                   (* not an lvalue *)
      end
    else if beq_bytes op (bs "*") then
      do '(v, s) <- eval a s; match v with VPtr l => Ok (mem s l, s) | _ => Panic end
    else do '(v, s) <- eval a s; do v <- builtin1 op v; Ok (v, s)
  | Bin op ty a b =>
    if beq_bytes op (bs "=") then
      match a with Var x => do '(v, s) <- eval b s; Ok (v, store (LVar x) v s) | _ => Panic end
    else
      match is_equality op, ty with
      | true, TObj n =>
        do '(p, s) <- (match a with Var x => Ok (VPtr (LVar x), s) | _ => do '(v, s) <- eval a s; Ok (fresh v s) end);
        do '(q, s) <- (match b with Var x => Ok (VPtr (LVar x), s) | _ => do '(v, s) <- eval b s; Ok (fresh v s) end);
        do '(v, s) <- call (n ++ bs "__eq") [p; q] s;
        if beq_bytes op (bs "!=") then do v <- negate v; Ok (v, s) else Ok (v, s)
      | _, _ => do '(v, s) <- eval a s; do '(w, s) <- eval b s; do r <- builtin op v w; Ok (r, s)
      end
  | Call1 f a => do '(v, s) <- eval a s; call f [v] s
  | Call2 f a b => do '(v, s) <- eval a s; do '(w, s) <- eval b s; call f [v; w] s
  end.
End program.
