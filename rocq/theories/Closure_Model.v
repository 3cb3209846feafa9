(** Closures: the capture list and the analysis of captured variables
    (src/parser/parser_expr.c), the code generated for creating a closure and for the
    variables in its body (src/codegen/codegen.c, src/codegen/codegen_decl.c) and what it does. *)
From Verif Require Import Common.
Local Open Scope nat_scope.

Definition name := bytes.

(** The syntax tree as the analysis sees it.  [Plain]: unary and binary operators, calls,
    members, indices, slices and returns; [Other]: every node find_var_refs does not descend
    into (ranges and other loops, defer, conditionals, casts, struct initialisers, print
    statements, inner closures, ...); a missing child is [Leaf]. *)
Inductive node :=
| Leaf
| Var (x : name)
| Plain (l : list node)
| Block (l : list node)
| Decl (x : name) (init : node)
| Const (x : name) (init : node)
| If (c t e : node)
| While (c b : node)
| For (i c s b : node)
| Match (e : node) (cases : list mcase)
| Other (l : list node)
with mcase := Case (binds : list name) (guard body : node).

(** parser_expr.c:504-591 find_var_refs *)
Fixpoint find_var_refs (n : node) : list name :=
  match n with
  | Leaf => []
  | Var x => [x]
  | Plain l | Block l => flat_map find_var_refs l
  | Decl _ i | Const _ i => find_var_refs i
  | If c t e => find_var_refs c ++ find_var_refs t ++ find_var_refs e
  | While c b => find_var_refs c ++ find_var_refs b
  | For i c s b => find_var_refs i ++ find_var_refs c ++ find_var_refs s ++ find_var_refs b
  | Match e cases => find_var_refs e ++ flat_map (fun '(Case _ _ b) => find_var_refs b) cases
  | Other _ => []
  end.
(** parser_expr.c:594-646 find_declared_vars *)
Fixpoint find_declared_vars (n : node) : list name :=
  match n with
  | Decl x _ => [x]
  | Block l => flat_map find_declared_vars l
  | If _ t e => find_declared_vars t ++ find_declared_vars e
  | While _ b => find_declared_vars b
  | For i _ _ b => find_declared_vars i ++ find_declared_vars b
  | Match _ cases => flat_map (fun '(Case bs _ b) => bs ++ find_declared_vars b) cases
  | Leaf | Var _ | Plain _ | Const _ _ | Other _ => []
  end.

(** parser_expr.c:490-500 is_in_list *)
Definition is_in_list (x : name) (l : list name) : bool := existsb (beq_bytes x) l.

(** A captured variable: its name, the name of its type, and whether by reference *)
Record capture := mkcap { cname : name; ctype : bytes; by_ref : bool }.

(** The parser's context: the scopes from the innermost to the global one, each with its
    symbols and their types (if known), and the registered functions *)
Definition scope := list (name * option bytes).
Record context := mkctx { scopes : list scope; funcs : list name }.
Fixpoint find_in (x : name) (s : scope) : option (option bytes) :=
  match s with (y, t) :: r => if beq_bytes y x then Some t else find_in x r | [] => None end.
(** find_symbol_type_info *)
Fixpoint symbol_type (x : name) (l : list scope) : option bytes :=
  match l with s :: r => match find_in x s with Some t => t | None => symbol_type x r end | [] => None end.
(** parser_expr.c:727-752: found in a scope; the last scope has no parent *)
Inductive place := Nowhere | AtGlobal | AtLocal.
Fixpoint find_place (x : name) (l : list scope) : place :=
  match l with
  | s :: r => match find_in x s with
              | Some _ => match r with [] => AtGlobal | _ => AtLocal end
              | None => find_place x r
              end
  | [] => Nowhere
  end.
Definition type_name (ctx : context) (x : name) : bytes :=
  match symbol_type x (scopes ctx) with Some t => t | None => bs "int" end.

(** parser_expr.c:703-708 *)
Definition builtins : list name := map bs ["printf"; "malloc"; "strcmp"; "free"; "Vec_new"; "Vec_push"]%string.

(** The lambda as parsed; an explicit capture is a name and whether it is by reference *)
Record lambda := mklam { params : list name; default_ref : bool; explicit : list (name * bool); body : node }.

(** parser_expr.c:664-666: room for 32 captures, not checked: UB beyond *)
Definition add (c : capture) (caps : list capture) : res (list capture) :=
  if length caps <? 32 then Ok (caps ++ [c]) else UB.
(** parser_expr.c:669-681 *)
Fixpoint explicit_loop (ctx : context) (l : list (name * bool)) (caps : list capture) : res (list capture) :=
  match l with
  | [] => Ok caps
  | (x, r) :: l =>
    if is_in_list x (map cname caps) then explicit_loop ctx l caps
    else do caps <- add (mkcap x (type_name ctx x) r) caps; explicit_loop ctx l caps
  end.
(** parser_expr.c:683-783 *)
Fixpoint refs_loop (ctx : context) (lam : lambda) (locals : list name) (refs : list name) (caps : list capture) : res (list capture) :=
  match refs with
  | [] => Ok caps
  | x :: refs =>
    if is_in_list x (params lam) || is_in_list x locals || is_in_list x (map cname caps) || is_in_list x builtins ||
       is_in_list x (funcs ctx) || match find_place x (scopes ctx) with AtGlobal => true | _ => false end
    then refs_loop ctx lam locals refs caps
    else do caps <- add (mkcap x (type_name ctx x) (default_ref lam)) caps; refs_loop ctx lam locals refs caps
  end.
(** parser_expr.c:649-803 analyze_lambda_captures *)
Definition analyze (ctx : context) (lam : lambda) : res (list capture) :=
  do caps <- explicit_loop ctx (explicit lam) [];
  refs_loop ctx lam (find_declared_vars (body lam)) (find_var_refs (body lam)) caps.

(** parser_expr.c:805-868: the capture list behind fn, after its opening bracket.  The
    arrays have room for 32 names. *)
Inductive ctok := CAmp | CEq | CId (x : name) | CComma | CClose | CElse.
Definition push (c : name * bool) (l : list (name * bool)) : res (list (name * bool)) :=
  if length l <? 32 then Ok (l ++ [c]) else UB.
Fixpoint capture_list (fuel : nat) (toks : list ctok) (d : bool) (l : list (name * bool)) : res (bool * list (name * bool) * list ctok) :=
  match fuel with
  | O => Fuel
  | S fuel =>
    match toks with
    | [] => Panic
    | CClose :: r => Ok (d, l, r)
    | _ =>
      do q <- match toks with
              | CAmp :: CId x :: r => do l <- push (x, true) l; Ok (d, l, r)
              | CAmp :: r => Ok (true, l, r)
              | CEq :: r => Ok (false, l, r)
              | CId x :: r => do l <- push (x, false) l; Ok (d, l, r)
              | _ => Panic
              end;
      let '(d, l, r) := q in
      match r with
      | CComma :: r => capture_list fuel r d l
      | CClose :: r => Ok (d, l, r)
      | _ => Panic
      end
    end
  end.

(** ** The generated code *)

(** codegen.c:64-83 codegen_var_expr: ctx->x, ( *ctx->x) or the name itself *)
Inductive access := Field (x : name) | Deref (x : name) | Name (x : name).
Fixpoint find_cap (x : name) (l : list capture) : option bool :=
  match l with c :: r => if beq_bytes x (cname c) then Some (by_ref c) else find_cap x r | [] => None end.
Definition codegen_var (current : option (list capture)) (x : name) : access :=
  match current with
  | Some caps => match find_cap x caps with Some true => Deref x | Some false => Field x | None => Name x end
  | None => Name x
  end.

(** codegen.c:146-220 codegen_lambda_expr: the assignments to the fields of the new context;
    in them the name ctx stands for the new context.  Moving out of a variable with a
    destructor (codegen_expression_with_move) is not modelled here. *)
Inductive rhs := Value (a : access) | AddressOf (a : access).
Definition capture_stmts (current : option (list capture)) (caps : list capture) : list (name * rhs) :=
  map (fun c =>
    (cname c,
     if by_ref c then
       match match current with Some cur => find_cap (cname c) cur | None => None end with
       | Some true => Value (Field (cname c))
       | Some false => AddressOf (Field (cname c))
       | None => AddressOf (Name (cname c))
       end
     else Value (codegen_var current (cname c)))) caps.

(** ** What the generated code does *)
Section Run.
Variable value : Type.

(** The contents of a field: nothing yet, a value, a pointer to a variable of the enclosing
    function, a pointer to a field of a context *)
Inductive cell := Uninit | Val (v : value) | ToVar (x : name) | ToField (n : nat) (x : name).
Definition fields := list (name * cell).
(** Memory: the global variables, the variables of the enclosing function while it runs, the
    contexts allocated so far.  Allocation is taken to succeed. *)
Record mem := mkmem { globals : list (name * value); frame : option (list (name * value)); heap : list fields }.

Fixpoint get {A} (x : name) (l : list (name * A)) : option A :=
  match l with (y, v) :: r => if beq_bytes x y then Some v else get x r | [] => None end.
Fixpoint put {A} (x : name) (v : A) (l : list (name * A)) : list (name * A) :=
  match l with (y, w) :: r => if beq_bytes x y then (y, v) :: r else (y, w) :: put x v r | [] => [] end.
Fixpoint update {A} (n : nat) (f : A -> A) (l : list A) : list A :=
  match l, n with a :: r, O => f a :: r | a :: r, S n => a :: update n f r | [], _ => [] end.

(** What the body of a closure does: it ends with a value, reads a variable, assigns to one,
    or declares one.  The names are those in the source. *)
Inductive prog :=
| Done (v : value)
| Get (x : name) (k : value -> prog)
| Put (x : name) (v : value) (k : prog)
| New (x : name) (v : value) (k : prog).

(** Reading a field of a context *)
Definition load_field (m : mem) (n : nat) (x : name) : res cell :=
  match nth_error (heap m) n with
  | Some fs => match get x fs with Some c => Ok c | None => Panic end
  | None => UB
  end.
Definition store_field (m : mem) (n : nat) (x : name) (c : cell) : res mem :=
  match nth_error (heap m) n with
  | Some fs => match get x fs with
               | Some _ => Ok (mkmem (globals m) (frame m) (update n (put x c) (heap m)))
               | None => Panic
               end
  | None => UB
  end.
Definition value_of (c : cell) : res value := match c with Val v => Ok v | _ => UB end.
(** Reading and writing through a name, a field or a pointer.  [locals] are the parameters
    and local variables of the generated function; a name that is neither one of these nor a
    global variable is an error of the C compiler (Panic), and so is the use of a variable
    called ctx in the place of the pointer to the context. *)
Definition hidden (ctx : option nat) (x : name) : bool :=
  match ctx with Some _ => beq_bytes x (bs "ctx") | None => false end.
Definition load (m : mem) (locals : list (name * value)) (ctx : option nat) (a : access) : res value :=
  match a with
  | Name x => if hidden ctx x then Panic else
              match get x locals with
              | Some v => Ok v
              | None => match get x (globals m) with Some v => Ok v | None => Panic end
              end
  | Field x => match ctx with Some n => do c <- load_field m n x; value_of c | None => UB end
  | Deref x =>
    match ctx with
    | Some n => do c <- load_field m n x;
                match c with
                | ToVar y => match frame m with
                             | Some f => match get y f with Some v => Ok v | None => UB end
                             | None => UB
                             end
                | ToField k y => do c <- load_field m k y; value_of c
                | _ => UB
                end
    | None => UB
    end
  end.
Definition store (m : mem) (locals : list (name * value)) (ctx : option nat) (a : access) (v : value) : res (mem * list (name * value)) :=
  match a with
  | Name x => if hidden ctx x then Panic else
              match get x locals with
              | Some _ => Ok (m, put x v locals)
              | None => match get x (globals m) with
                        | Some _ => Ok (mkmem (put x v (globals m)) (frame m) (heap m), locals)
                        | None => Panic
                        end
              end
  | Field x => match ctx with Some n => do m <- store_field m n x (Val v); Ok (m, locals) | None => UB end
  | Deref x =>
    match ctx with
    | Some n => do c <- load_field m n x;
                match c with
                | ToVar y => match frame m with
                             | Some f => match get y f with
                                         | Some _ => Ok (mkmem (globals m) (Some (put y v f)) (heap m), locals)
                                         | None => UB
                                         end
                             | None => UB
                             end
                | ToField k y => do m <- store_field m k y (Val v); Ok (m, locals)
                | _ => UB
                end
    | None => UB
    end
  end.

(** The body with its variables compiled; [current]: the captures of this closure *)
Fixpoint run_body (current : list capture) (ctx : option nat) (m : mem) (locals : list (name * value)) (p : prog) : res (value * mem) :=
  match p with
  | Done v => Ok (v, m)
  | Get x k => do v <- load m locals ctx (codegen_var (Some current) x); run_body current ctx m locals (k v)
  | Put x v k => do q <- store m locals ctx (codegen_var (Some current) x) v; run_body current ctx (fst q) (snd q) k
  | New x v k => run_body current ctx m ((x, v) :: locals) k
  end.

(** A closure value (z_closure_T): the function and its context *)
Record closure := mkclo { code : list capture * list name * prog; env : option nat }.
(** The assignments in a function: [here] are the names its own variables are found under *)
Definition eval_rhs (m : mem) (ctx : nat) (r : rhs) : res cell :=
  match r with
  | Value (Name x) => if hidden (Some ctx) x then Panic else
                      match frame m with
                      | Some f => match get x f with
                                  | Some v => Ok (Val v)
                                  | None => match get x (globals m) with Some v => Ok (Val v) | None => Panic end
                                  end
                      | None => UB
                      end
  | Value (Field x) => do c <- load_field m ctx x; match c with Uninit => UB | c => Ok c end
  | Value (Deref x) => do v <- load m [] (Some ctx) (Deref x); Ok (Val v)
  | AddressOf (Name x) => if hidden (Some ctx) x then Panic else
                          match frame m with
                          | Some f => match get x f with Some _ => Ok (ToVar x) | None => Panic end
                          | None => UB
                          end
  | AddressOf (Field x) => do c <- load_field m ctx x; Ok (ToField ctx x)
  | AddressOf (Deref x) => load_field m ctx x
  end.
Fixpoint fill (m : mem) (ctx : nat) (l : list (name * rhs)) : res mem :=
  match l with
  | [] => Ok m
  | (x, r) :: l => do c <- eval_rhs m ctx r; do m <- store_field m ctx x c; fill m ctx l
  end.
(** codegen.c:146-220: creating a closure; without captures there is no context *)
Definition create (current : option (list capture)) (m : mem) (caps : list capture) (ps : list name) (p : prog) : res (mem * closure) :=
  match caps with
  | [] => Ok (m, mkclo (caps, ps, p) None)
  | _ =>
    let n := length (heap m) in
    do m <- fill (mkmem (globals m) (frame m) (heap m ++ [map (fun c => (cname c, Uninit)) caps])) n (capture_stmts current caps);
    Ok (m, mkclo (caps, ps, p) (Some n))
  end.
(** codegen.c:727-765: calling one *)
Definition call (m : mem) (c : closure) (args : list value) : res (value * mem) :=
  let '(caps, ps, p) := code c in run_body caps (env c) m (combine ps args) p.

(** What the enclosing function does with its closures: it assigns to its variables or to
    global ones, creates and calls closures, and returns *)
Inductive op :=
| Assign (x : name) (v : value)
| AssignGlobal (x : name) (v : value)
| Create (lam : lambda) (p : prog)
| Call (k : nat) (args : list value)
| Leave.
Definition step (ctx : context) (s : mem * list closure * list value) (o : op) : res (mem * list closure * list value) :=
  let '(m, cs, out) := s in
  match o with
  | Assign x v => match frame m with
                  | Some f => Ok (mkmem (globals m) (Some (put x v f)) (heap m), cs, out)
                  | None => Panic
                  end
  | AssignGlobal x v => Ok (mkmem (put x v (globals m)) (frame m) (heap m), cs, out)
  | Create lam p =>
    do caps <- analyze ctx lam;
    do q <- create None m caps (params lam) p;
    Ok (fst q, cs ++ [snd q], out)
  | Call k args =>
    match nth_error cs k with
    | Some c => do q <- call m c args; Ok (snd q, cs, out ++ [fst q])
    | None => Panic
    end
  | Leave => Ok (mkmem (globals m) None (heap m), cs, out)
  end.
Fixpoint steps (ctx : context) (s : mem * list closure * list value) (l : list op) : res (mem * list closure * list value) :=
  match l with
  | [] => Ok s
  | o :: l => do s <- step ctx s o; steps ctx s l
  end.
End Run.
Arguments Uninit {value}. Arguments Val {value}. Arguments ToVar {value}. Arguments ToField {value}.
Arguments Done {value}. Arguments Get {value}. Arguments Put {value}. Arguments New {value}.
Arguments mkmem {value}. Arguments globals {value}. Arguments frame {value}. Arguments heap {value}.
Arguments mkclo {value}. Arguments code {value}. Arguments env {value}.
Arguments Assign {value}. Arguments AssignGlobal {value}. Arguments Create {value}. Arguments Call {value}. Arguments Leave {value}.
Arguments load_field {value}. Arguments store_field {value}. Arguments load {value}. Arguments store {value}.
Arguments run_body {value}. Arguments eval_rhs {value}. Arguments fill {value}. Arguments create {value}. Arguments call {value}.
Arguments step {value}. Arguments steps {value}. Arguments value_of {value}.
