(** The move checker (src/analysis/move_check.c; src/analysis/typecheck.c:31-165, 250-300,
    590-680, 797-834, 914-983, 1000-1100, 1106-1250, 1368-1560).

    Names are numbers.  Conditions and literals are not looked at.  Not modelled: the errors
    for moving out of a pointer, a field or an element and all type errors (with them even
    fewer programs are accepted), global variables, goto, computed values. *)
From Verif Require Import Common.
Local Open Scope nat_scope.

(** What the checker knows of a variable's type (move_check.c:146-202 is_type_copy): Copy,
    not Copy, or not Copy but without type information, which counts as Copy *)
Inductive ty := TCopy | TOwned | TUnseen.

(** Expressions.  [EOp]: every operator, member, index, cast and so on: the parts are
    checked in order.  [ECall]: calls, struct literals and by-value captures of a lambda:
    parts that are variables are moved.  [EArray]: array literals.  [EAssignTo l e]:
    assignment to something that is not a variable.  [ELogic]: && and ||. *)
Inductive expr :=
| ELit
| EVar (x : nat)
| EOp (es : exprs)
| ECall (es : exprs)
| EArray (es : exprs)
| EAssign (x : nat) (e : expr)
| EAssignTo (l e : expr)
| ECond (c a b : expr)
| ELogic (a b : expr)
with exprs :=
| ENil
| ECons (e : expr) (es : exprs).

(** Statements.  [SUnless]: unless and guard.  [SRange x b]: for x in a range.
    [SDefer e]: a deferred expression. *)
Inductive stmt :=
| SExpr (e : expr)
| SBlock (l : items)
| SIf (c : expr) (t : stmt)
| SIfElse (c : expr) (t e : stmt)
| SMatch (e : expr) (cs : cases)
| SUnless (c : expr) (t : stmt)
| SWhile (c : expr) (b : stmt)
| SFor (x : nat) (t : ty) (i c step : expr) (b : stmt)
| SLoop (b : stmt)
| SDo (b : stmt) (c : expr)
| SRange (x : nat) (b : stmt)
| SReturn (e : expr)
| SBreak
| SContinue
with items :=
| Nil
| Then (s : stmt) (l : items)
| Let (x : nat) (t : ty) (e : expr) (l : items)
| Defer (e : expr) (l : items)
with cases :=
| CNil
| CCons (default : bool) (b : stmt) (cs : cases).

(** move_check.h MoveState; the parent is always NULL *)
Inductive status := Valid | Moved.
Definition mstate : Type := list (nat * status).
(** move_check.c:84-100 get_move_status *)
Fixpoint get_status (m : mstate) (x : nat) : status :=
  match m with
  | [] => Valid
  | (y, s) :: m => if y =? x then s else get_status m x
  end.
Fixpoint set_first (m : mstate) (x : nat) (s : status) : option mstate :=
  match m with
  | [] => None
  | (y, s0) :: m => if y =? x then Some ((y, s) :: m) else match set_first m x s with Some m => Some ((y, s0) :: m) | None => None end
  end.
(** move_check.c:58-82 mark_moved_in_state, 280-304 mark_valid_in_state *)
Definition mark (m : mstate) (x : nat) (s : status) : mstate :=
  match set_first m x s with Some m => m | None => (x, s) :: m end.
(** move_check.c:102-144 move_state_merge *)
Definition is_moved (s : status) : bool := match s with Moved => true | Valid => false end.
Definition merge_from (target a : mstate) (b : option mstate) : mstate :=
  fold_left (fun t e =>
    if is_moved (snd e) || match b with Some b => is_moved (get_status b (fst e)) | None => false end then mark t (fst e) Moved else t) a target.
Definition merge (target a : mstate) (b : option mstate) : mstate :=
  let t := merge_from target a b in
  match b with Some b => merge_from t b (Some a) | None => t end.

(** Symbols in scope, the newest first (typecheck.c:60-94 tc_add_symbol, tc_lookup) *)
Definition senv : Type := list (nat * ty).
Fixpoint lookup (env : senv) (x : nat) : option ty :=
  match env with
  | [] => None
  | (y, t) :: env => if y =? x then Some t else lookup env x
  end.

(** The state of the analysis, and whether no error has been reported *)
Definition ckd : Type := mstate * bool.
(** typecheck.c:970-983 check_expr_var, move_check.c:217-254 check_use_validity;
    [lhs] is is_assign_lhs *)
Definition check_use (env : senv) (lhs : bool) (x : nat) (c : ckd) : ckd :=
  let '(m, ok) := c in
  if lhs then c else match lookup env x with Some _ => (m, ok && negb (is_moved (get_status m x))) | None => c end.
(** move_check.c:256-278 mark_symbol_moved of the symbol found; typecheck.c:123-142
    check_move_for_rvalue and 812-820, 1055-1064 on a variable *)
Definition move_var (env : senv) (x : nat) (c : ckd) : ckd :=
  match lookup env x with Some TOwned => (mark (fst c) x Moved, snd c) | _ => c end.
Definition move_rvalue (env : senv) (e : expr) (c : ckd) : ckd := match e with EVar x => move_var env x c | _ => c end.
(** typecheck.c:286-294, move_check.c:306-317 mark_symbol_valid *)
Definition revive_var (env : senv) (x : nat) (c : ckd) : ckd :=
  match lookup env x with Some _ => (mark (fst c) x Valid, snd c) | None => c end.

(** typecheck.c check_node on expressions *)
Fixpoint check_expr (env : senv) (lhs : bool) (e : expr) (c : ckd) {struct e} : ckd :=
  match e with
  | ELit => c
  | EVar x => check_use env lhs x c
  | EOp es | EArray es => check_exprs env lhs false es c
  | ECall es => check_exprs env lhs true es c
  (* 251-300: the left side, with the flag set, then the right side with the old flag *)
  | EAssign x e => revive_var env x (move_rvalue env e (check_expr env lhs e c))
  | EAssignTo l e => move_rvalue env e (check_expr env lhs e (check_expr env true l c))
  | ECond d a b => check_expr env lhs b (check_expr env lhs a (check_expr env lhs d c))
  | ELogic a b => check_expr env lhs b (check_expr env lhs a c)
  end
with check_exprs (env : senv) (lhs moves : bool) (es : exprs) (c : ckd) {struct es} : ckd :=
  match es with
  | ENil => c
  | ECons e es =>
    let c := check_expr env lhs e c in
    check_exprs env lhs moves es (if moves then move_rvalue env e c else c)
  end.
Definition check_plain (env : senv) (e : expr) (c : ckd) : ckd := check_expr env false e c.
(** typecheck.c:800-833 check_var_decl *)
Definition check_init (env : senv) (e : expr) (c : ckd) : ckd := move_rvalue env e (check_expr env false e c).

(** typecheck.c check_node on statements; do-while and for over a range are not among its
    cases *)
Fixpoint check_stmt (env : senv) (s : stmt) (c : ckd) {struct s} : ckd :=
  match s with
  | SExpr e | SReturn e => check_plain env e c
  | SBlock l => check_items env l c
  | SIf d t =>
    let '(m, ok) := check_plain env d c in
    let '(mt, okt) := check_stmt env t (m, ok) in
    (merge m mt None, okt)
  | SIfElse d t e =>
    let '(m, ok) := check_plain env d c in
    let '(mt, okt) := check_stmt env t (m, ok) in
    let '(me, oke) := check_stmt env e (m, okt) in
    (merge m mt (Some me), oke)
  | SMatch e cs => check_cases env cs (check_plain env e c)
  | SUnless d t => check_stmt env t (check_plain env d c)
  | SWhile d b => check_stmt env b (check_plain env d c)
  | SFor x t i d step b =>
    let env' := (x, t) :: env in
    check_stmt env' b (check_plain env' step (check_plain env' d (check_init env i c)))
  | SLoop b => check_stmt env b c
  | SDo _ _ | SRange _ _ => c
  | SBreak | SContinue => c
  end
with check_items (env : senv) (l : items) (c : ckd) {struct l} : ckd :=
  match l with
  | Nil => c
  | Then s l => check_items env l (check_stmt env s c)
  | Let x t e l => check_items ((x, t) :: env) l (check_init env e c)
  | Defer e l => check_items env l (check_plain env e c)
  end
with check_cases (env : senv) (cs : cases) (c : ckd) {struct cs} : ckd :=
  match cs with
  | CNil => c
  | CCons _ b cs => check_cases env cs (check_stmt env b c)
  end.
(** typecheck.c:914-934 check_function: parameters have no type information; a top-level
    function is checked, methods in impl blocks are never visited (check_node has no
    NODE_IMPL case) *)
Definition param_env (params : list (nat * bool)) : senv := rev (map (fun p : nat * bool => (fst p, if snd p then TUnseen else TCopy)) params).
Inductive decl :=
| Function (params : list (nat * bool)) (body : items)
| Method (params : list (nat * bool)) (body : items).
Definition accepted (d : decl) : bool :=
  match d with
  | Function params body => snd (check_items (param_env params) body ([], true))
  | Method _ _ => true
  end.
Definition params_of (d : decl) : list (nat * bool) := match d with Function p _ | Method p _ => p end.
Definition body_of (d : decl) : items := match d with Function _ b | Method _ b => b end.
