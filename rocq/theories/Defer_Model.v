(** Deferred statements: the C statements generated for a function
    (src/codegen/codegen_stmt.c; src/codegen/codegen_utils.c:14-22).

    Actions, conditions and returned expressions are numbers, whose meaning is left open.
    The parser rejects break, continue, return and goto inside a deferred statement
    (src/parser/parser_stmt.c:1027, 2538, 2569, 2759), so deferred statements have a type
    of their own.  Not modelled: goto, labels (labelled jumps generate a goto to a label
    that is never generated), match, and a defer that is itself the body of a loop, a guard
    or another defer without braces. *)
From Verif Require Import Common.
Local Open Scope nat_scope.

(** Statements that can be deferred; [DIfThen] is if without else, unless and guard;
    [DLoop] is loop; [DFor] is for, for over a range and repeat: a condition and a step *)
Inductive dstmt :=
| DPrim (a : nat)
| DBlock (l : ditems)
| DIfThen (c : nat) (d : dstmt)
| DIfElse (c : nat) (t : ditems) (e : dstmt)
| DWhile (c : nat) (d : dstmt)
| DDo (l : ditems) (c : nat)
| DFor (c step : nat) (d : dstmt)
| DLoop (l : ditems)
with ditems :=
| DNil
| DThen (d : dstmt) (l : ditems)
| DDefer (d : dstmt) (l : ditems).

Inductive stmt :=
| Prim (a : nat)
| Block (l : items)
| IfThen (c : nat) (s : stmt)
| IfElse (c : nat) (t : items) (e : stmt)
| While (c : nat) (s : stmt)
| Do (l : items) (c : nat)
| For (c step : nat) (s : stmt)
| Loop (l : items)
| Break
| Continue
| Return (e : option nat)
| ReturnSlice (e : nat)
with items :=
| Nil
| Then (s : stmt) (l : items)
| Defer (d : dstmt) (l : items).

(** The C statements.  [TRetAfter e l] is "{ auto _z_ret = e; l return _z_ret; }". *)
Inductive tstmt :=
| TPrim (a : nat)
| TBlock (l : list tstmt)
| TIf (c : nat) (t : tstmt)
| TIfElse (c : nat) (t e : tstmt)
| TWhile (c : nat) (t : tstmt)
| TDo (t : tstmt) (c : nat)
| TFor (c step : nat) (t : tstmt)
| TForever (t : tstmt)
| TBreak
| TContinue
| TReturn (e : option nat)
| TRetAfter (e : nat) (l : list tstmt).

(** defer_stack holds statements.  A deferred statement has no jumps, so the text it is
    generated as depends only on the number of entries of the stack and of open loops: an
    entry is that function. *)
Definition entry : Type := nat -> nat -> res (list tstmt).
Definition MAX_DEFER : nat := 1024.
Definition MAX_LOOP_DEPTH : nat := 64.
(** for (i = defer_count - 1; i >= boundary; i--) codegen_node_single(defer_stack[i]) on
    the given entries, the newest first *)
Fixpoint run_entries (es : list entry) (height depth : nat) : res (list tstmt) :=
  match es with
  | [] => Ok []
  | e :: es => do c <- e height depth; do r <- run_entries es height depth; Ok (c ++ r)
  end.
(** codegen_stmt.c:841-846 NODE_DEFER on the entries [own] on top of [base] others *)
Definition push (base : nat) (own : list entry) (e : entry) : list entry :=
  if base + length own <? MAX_DEFER then e :: own else own.
(** A statement used as the body of [f]: the text is that of a list of C statements, so
    only the first of them is the body. *)
Definition as_body (f : tstmt -> tstmt) (code : list tstmt) : list tstmt :=
  match code with t :: r => f t :: r | [] => [] end.
(** loop_defer_boundary[loop_depth++] = ..., an array of 64 that is not checked *)
Definition enter_loop {A} (depth : nat) (k : res A) : res A := if depth <? MAX_LOOP_DEPTH then k else UB.

(** codegen_stmt.c:956-960: the end of a block that pushed [own] *)
Definition close (height depth : nat) (r : res (list tstmt * list entry)) : res (list tstmt) :=
  do r <- r;
  let '(c, own) := r in
  do ds <- run_entries own (height + length own) depth;
  Ok (c ++ ds).

(** codegen_stmt.c:951-963 NODE_BLOCK, 1168-1191 NODE_IF, NODE_UNLESS, NODE_GUARD,
    1192-1384 the loops *)
Fixpoint demit (d : dstmt) (height depth : nat) {struct d} : res (list tstmt) :=
  match d with
  | DPrim a => Ok [TPrim a]
  | DBlock l => do b <- close height depth (demits l [] height depth); Ok [TBlock b]
  | DIfThen c d => do b <- demit d height depth; Ok (as_body (TIf c) b)
  | DIfElse c t e =>
    do b <- close height depth (demits t [] height depth); do b2 <- demit e height depth; Ok (as_body (TIfElse c (TBlock b)) b2)
  | DWhile c d => enter_loop depth (do b <- demit d height (S depth); Ok (as_body (TWhile c) b))
  | DDo l c => enter_loop depth (do b <- close height (S depth) (demits l [] height (S depth)); Ok [TDo (TBlock b) c])
  | DFor c step d => enter_loop depth (do b <- demit d height (S depth); Ok (as_body (TFor c step) b))
  | DLoop l => enter_loop depth (do b <- close height (S depth) (demits l [] height (S depth)); Ok [TForever (TBlock b)])
  end
with demits (l : ditems) (own : list entry) (base depth : nat) {struct l} : res (list tstmt * list entry) :=
  match l with
  | DNil => Ok ([], own)
  | DThen d l =>
    do c <- demit d (base + length own) depth;
    do r <- demits l own base depth;
    let '(c2, own) := r in Ok (c ++ c2, own)
  | DDefer d l => demits l (push base own (demit d)) base depth
  end.

(** The same for all statements.  [stack] is defer_stack, the newest first; [bnds] is
    loop_defer_boundary, the innermost loop first. *)
Fixpoint emit (s : stmt) (stack : list entry) (bnds : list nat) {struct s} : res (list tstmt) :=
  let height := length stack in
  let depth := length bnds in
  match s with
  | Prim a => Ok [TPrim a]
  | Block l => do b <- close height depth (emits l [] stack bnds); Ok [TBlock b]
  | IfThen c s => do b <- emit s stack bnds; Ok (as_body (TIf c) b)
  | IfElse c t e =>
    do b <- close height depth (emits t [] stack bnds); do b2 <- emit e stack bnds; Ok (as_body (TIfElse c (TBlock b)) b2)
  | While c s => enter_loop depth (do b <- emit s stack (height :: bnds); Ok (as_body (TWhile c) b))
  | Do l c => enter_loop depth (do b <- close height (S depth) (emits l [] stack (height :: bnds)); Ok [TDo (TBlock b) c])
  | For c step s => enter_loop depth (do b <- emit s stack (height :: bnds); Ok (as_body (TFor c step) b))
  | Loop l => enter_loop depth (do b <- close height (S depth) (emits l [] stack (height :: bnds)); Ok [TForever (TBlock b)])
  (* codegen_stmt.c:1244-1281 *)
  | Break =>
    do ds <- match bnds with b :: _ => run_entries (firstn (height - b) stack) height depth | [] => Ok [] end;
    Ok (ds ++ [TBreak])
  | Continue =>
    do ds <- match bnds with b :: _ => run_entries (firstn (height - b) stack) height depth | [] => Ok [] end;
    Ok (ds ++ [TContinue])
  (* codegen_stmt.c:1558-1685 NODE_RETURN; func_defer_boundary is always 0.  A variable
     that implements Drop is saved, cleared and returned the same way. *)
  | Return e =>
    if 0 <? height then
      do ds <- run_entries stack height depth;
      match e with
      | Some e => Ok [TRetAfter e ds]
      | None => Ok (ds ++ [TReturn None])
      end
    else Ok [TReturn e]
  (* codegen_stmt.c:1563-1606: an array literal returned as a slice *)
  | ReturnSlice e => Ok [TReturn (Some e)]
  end
with emits (l : items) (own stack : list entry) (bnds : list nat) {struct l} : res (list tstmt * list entry) :=
  match l with
  | Nil => Ok ([], own)
  | Then s l =>
    do c <- emit s (own ++ stack) bnds;
    do r <- emits l own stack bnds;
    let '(c2, own) := r in Ok (c ++ c2, own)
  | Defer d l => emits l (push (length stack) own (demit d)) stack bnds
  end.
(** codegen_stmt.c:669-825: a function, whose body is a block *)
Definition emit_function (body : items) : res (list tstmt) := emit (Block body) [] [].
