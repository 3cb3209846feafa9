(** What happens when functions run: which values have been moved. *)
From Verif Require Import Common Move_Model.
Local Open Scope nat_scope.

(** A live variable: its name, whether its type is not Copy, whether its value was moved *)
Record var := { name : nat; owned : bool; gone : bool }.
(** The live variables, the newest first, and what the coming conditions and choices turn
    out to be (any sequence) *)
Definition st : Type := list var * list bool.
Definition set_gone (g : bool) (v : var) : var := {| name := name v; owned := owned v; gone := g |}.
Fixpoint dead (r : list var) (x : nat) : bool :=
  match r with [] => false | v :: r => if name v =? x then owned v && gone v else dead r x end.
Fixpoint move (r : list var) (x : nat) : list var :=
  match r with [] => [] | v :: r => if name v =? x then (if owned v then set_gone true v else v) :: r else v :: move r x end.
Fixpoint revive (r : list var) (x : nat) : list var :=
  match r with [] => [] | v :: r => if name v =? x then set_gone false v :: r else v :: revive r x end.
Definition toss (s : st) : bool * st := match snd s with [] => (false, s) | b :: bs => (b, (fst s, bs)) end.

(** Evaluating an expression; [consume]: its value goes to a new owner.  The result is false
    when a variable is used whose value is gone. *)
Fixpoint eval (consume : bool) (e : expr) (s : st) {struct e} : bool * st :=
  match e with
  | ELit => (true, s)
  | EVar x =>
    if dead (fst s) x then (false, s) else (true, if consume then (move (fst s) x, snd s) else s)
  | EOp es => evals false es s
  | ECall es | EArray es => evals true es s
  | EAssign x e => let '(ok, s) := eval true e s in if ok then (true, (revive (fst s) x, snd s)) else (false, s)
  | EAssignTo l e => let '(ok, s) := eval false l s in if ok then eval true e s else (false, s)
  | ECond c a b =>
    let '(ok, s) := eval false c s in
    if ok then let '(t, s) := toss s in if t then eval consume a s else eval consume b s else (false, s)
  | ELogic a b =>
    let '(ok, s) := eval false a s in
    if ok then let '(t, s) := toss s in if t then eval false b s else (true, s) else (false, s)
  end
with evals (consume : bool) (es : exprs) (s : st) {struct es} : bool * st :=
  match es with
  | ENil => (true, s)
  | ECons e es => let '(ok, s) := eval consume e s in if ok then evals consume es s else (false, s)
  end.

Inductive outcome := ONormal | OBreak | OContinue | OReturn | OBad.
(** Leaving a block: its variables go *)
Definition leave (size : nat) (s : st) : st := (skipn (length (fst s) - size) (fst s), snd s).
Definition test (c : expr) (s : st) : option bool * st :=
  let '(ok, s) := eval false c s in if ok then let '(t, s) := toss s in (Some t, s) else (None, s).
Fixpoint loop (n : nat) (cond : st -> option bool * st) (body : st -> option (outcome * st)) (step : st -> bool * st) (s : st) : option (outcome * st) :=
  match n with
  | O => None
  | S n =>
    match cond s with
    | (None, s) => Some (OBad, s)
    | (Some false, s) => Some (ONormal, s)
    | (Some true, s) =>
      match body s with
      | Some (ONormal, s) | Some (OContinue, s) => let '(ok, s) := step s in if ok then loop n cond body step s else Some (OBad, s)
      | Some (OBreak, s) => Some (ONormal, s)
      | r => r
      end
    end
  end.
Definition no_step (s : st) : bool * st := (true, s).
Definition choice (s : st) : option bool * st := let '(t, s) := toss s in (Some t, s).
Definition bind_var (x : nat) (t : bool) (s : st) : st := ({| name := x; owned := t; gone := false |} :: fst s, snd s).
Definition is_owned (t : ty) : bool := match t with TCopy => false | _ => true end.

(** The deferred expressions of a block, the newest first *)
Fixpoint run_deferred (ds : list expr) (o : outcome) (s : st) : outcome * st :=
  match ds with
  | [] => (o, s)
  | e :: ds => let '(ok, s) := eval false e s in if ok then run_deferred ds o s else (OBad, s)
  end.
Definition finish (ds : list expr) (size : nat) (r : option (outcome * st)) : option (outcome * st) :=
  match r with
  | Some (OBad, s) => Some (OBad, s)
  | Some (o, s) => let '(o, s) := run_deferred ds o s in Some (o, leave size s)
  | None => None
  end.

(** Every loop makes at most [n] turns; None if it would make more. *)
Fixpoint exec (n : nat) (t : stmt) (s : st) {struct t} : option (outcome * st) :=
  match t with
  | SExpr e => let '(ok, s) := eval false e s in Some (if ok then ONormal else OBad, s)
  | SReturn e => let '(ok, s) := eval true e s in Some (if ok then OReturn else OBad, s)
  | SBlock l => execs n l [] (length (fst s)) s
  | SIf c t => match test c s with (None, s) => Some (OBad, s) | (Some true, s) => exec n t s | (Some false, s) => Some (ONormal, s) end
  | SUnless c t => match test c s with (None, s) => Some (OBad, s) | (Some true, s) => Some (ONormal, s) | (Some false, s) => exec n t s end
  | SIfElse c t e => match test c s with (None, s) => Some (OBad, s) | (Some true, s) => exec n t s | (Some false, s) => exec n e s end
  | SMatch e cs => let '(ok, s) := eval false e s in if ok then execc n cs s else Some (OBad, s)
  | SWhile c b => loop n (test c) (exec n b) no_step s
  | SFor x t i c step b =>
    let size := length (fst s) in
    let '(ok, s) := eval true i s in
    if ok then
      match loop n (test c) (exec n b) (eval false step) (bind_var x (is_owned t) s) with
      | Some (o, s) => Some (o, leave size s)
      | None => None
      end
    else Some (OBad, s)
  | SLoop b => loop n (fun s => (Some true, s)) (exec n b) no_step s
  | SDo b c =>
    match exec n b s with
    | Some (ONormal, s) | Some (OContinue, s) => loop n (test c) (exec n b) no_step s
    | Some (OBreak, s) => Some (ONormal, s)
    | r => r
    end
  | SRange x b =>
    let size := length (fst s) in
    match loop n choice (fun s => exec n b s) no_step (bind_var x false s) with
    | Some (o, s) => Some (o, leave size s)
    | None => None
    end
  | SBreak => Some (OBreak, s)
  | SContinue => Some (OContinue, s)
  end
(** [ds]: what was deferred in this block; [size]: the variables live before it *)
with execs (n : nat) (l : items) (ds : list expr) (size : nat) (s : st) {struct l} : option (outcome * st) :=
  match l with
  | Nil => finish ds size (Some (ONormal, s))
  | Then t l =>
    match exec n t s with
    | Some (ONormal, s) => execs n l ds size s
    | r => finish ds size r
    end
  | Let x t e l =>
    let '(ok, s) := eval true e s in
    if ok then execs n l ds size (bind_var x (is_owned t) s) else Some (OBad, s)
  | Defer e l => execs n l (e :: ds) size s
  end
with execc (n : nat) (cs : cases) (s : st) {struct cs} : option (outcome * st) :=
  match cs with
  | CNil => Some (ONormal, s)
  | CCons d b cs => if d then exec n b s else let '(t, s) := toss s in if t then exec n b s else execc n cs s
  end.

Definition start (params : list (nat * bool)) : list var := rev (map (fun p : nat * bool => {| name := fst p; owned := snd p; gone := false |}) params).
(** Some run of the function uses a variable whose value was moved away *)
Definition uses_moved (d : decl) : Prop :=
  exists n choices s, execs n (body_of d) [] (length (start (params_of d))) (start (params_of d), choices) = Some (OBad, s).

(** ** Names *)
(** Variables whose value is moved, or that are assigned, anywhere in a text (what a return
    moves does not count: nothing runs after it); all names *)
Fixpoint moved_in (consume : bool) (e : expr) : list nat :=
  match e with
  | ELit => []
  | EVar x => if consume then [x] else []
  | EOp es => moved_ins false es
  | ECall es | EArray es => moved_ins true es
  | EAssign x e => moved_in true e
  | EAssignTo l e => moved_in false l ++ moved_in true e
  | ECond c a b => moved_in false c ++ moved_in consume a ++ moved_in consume b
  | ELogic a b => moved_in false a ++ moved_in false b
  end
with moved_ins (consume : bool) (es : exprs) : list nat :=
  match es with ENil => [] | ECons e es => moved_in consume e ++ moved_ins consume es end.
Fixpoint assigned_in (e : expr) : list nat :=
  match e with
  | ELit | EVar _ => []
  | EOp es | ECall es | EArray es => assigned_ins es
  | EAssign x e => x :: assigned_in e
  | EAssignTo l e => assigned_in l ++ assigned_in e
  | ECond c a b => assigned_in c ++ assigned_in a ++ assigned_in b
  | ELogic a b => assigned_in a ++ assigned_in b
  end
with assigned_ins (es : exprs) : list nat :=
  match es with ENil => [] | ECons e es => assigned_in e ++ assigned_ins es end.
Fixpoint names (e : expr) : list nat :=
  match e with
  | ELit => []
  | EVar x => [x]
  | EOp es | ECall es | EArray es => namess es
  | EAssign x e => x :: names e
  | EAssignTo l e => names l ++ names e
  | ECond c a b => names c ++ names a ++ names b
  | ELogic a b => names a ++ names b
  end
with namess (es : exprs) : list nat :=
  match es with ENil => [] | ECons e es => names e ++ namess es end.
Fixpoint moved_s (t : stmt) : list nat :=
  match t with
  | SExpr e => moved_in false e
  | SReturn _ => []
  | SBlock l => moved_l l
  | SIf c t | SUnless c t => moved_in false c ++ moved_s t
  | SIfElse c t e => moved_in false c ++ moved_s t ++ moved_s e
  | SMatch e cs => moved_in false e ++ moved_c cs
  | SWhile c b | SDo b c => moved_in false c ++ moved_s b
  | SFor _ _ i c step b => moved_in true i ++ moved_in false c ++ moved_in false step ++ moved_s b
  | SLoop b | SRange _ b => moved_s b
  | SBreak | SContinue => []
  end
with moved_l (l : items) : list nat :=
  match l with
  | Nil => []
  | Then t l => moved_s t ++ moved_l l
  | Let _ _ e l => moved_in true e ++ moved_l l
  | Defer e l => moved_in false e ++ moved_l l
  end
with moved_c (cs : cases) : list nat := match cs with CNil => [] | CCons _ b cs => moved_s b ++ moved_c cs end.
Fixpoint assigned_s (t : stmt) : list nat :=
  match t with
  | SExpr e | SReturn e => assigned_in e
  | SBlock l => assigned_l l
  | SIf c t | SUnless c t => assigned_in c ++ assigned_s t
  | SIfElse c t e => assigned_in c ++ assigned_s t ++ assigned_s e
  | SMatch e cs => assigned_in e ++ assigned_c cs
  | SWhile c b | SDo b c => assigned_in c ++ assigned_s b
  | SFor _ _ i c step b => assigned_in i ++ assigned_in c ++ assigned_in step ++ assigned_s b
  | SLoop b | SRange _ b => assigned_s b
  | SBreak | SContinue => []
  end
with assigned_l (l : items) : list nat :=
  match l with
  | Nil => []
  | Then t l => assigned_s t ++ assigned_l l
  | Let _ _ e l => assigned_in e ++ assigned_l l
  | Defer e l => assigned_in e ++ assigned_l l
  end
with assigned_c (cs : cases) : list nat := match cs with CNil => [] | CCons _ b cs => assigned_s b ++ assigned_c cs end.

(** ** Programs the checker can be trusted on *)
(** None of the names is a visible variable that is not Copy *)
Definition only_copy (env : senv) (l : list nat) : Prop := forall x, In x l -> lookup env x = None \/ lookup env x = Some TCopy.
(** Where the value goes: nowhere, to an owner the checker sees, or to one it does not see *)
Inductive place := Used | Tracked | Untracked.
(** A variable that is not Copy goes to an unseen owner nowhere; parts that may not be
    evaluated do not assign variables that are not Copy; the left side of an assignment,
    if not a variable, mentions only Copy variables. *)
Fixpoint fine (env : senv) (p : place) (e : expr) : Prop :=
  match e with
  | ELit => True
  | EVar x =>
    match p with
    | Used => True
    | Tracked => lookup env x <> Some TUnseen
    | Untracked => only_copy env [x]
    end
  | EOp es => fines env Used es
  | ECall es => fines env Tracked es
  | EArray es => fines env Untracked es
  | EAssign x e => fine env Tracked e
  | EAssignTo l e => fine env Used l /\ only_copy env (names l) /\ fine env Tracked e
  | ECond c a b =>
    let q := match p with Used => Used | _ => Untracked end in
    fine env Used c /\ fine env q a /\ fine env q b /\ only_copy env (assigned_in a ++ assigned_in b)
  | ELogic a b => fine env Used a /\ fine env Used b /\ only_copy env (assigned_in b)
  end
with fines (env : senv) (p : place) (es : exprs) : Prop :=
  match es with ENil => True | ECons e es => fine env p e /\ fines env p es end.
(** Further: no variable hides a visible one; loops neither move nor assign variables from
    outside that are not Copy; the branches of match, unless and guard do not assign them;
    deferred expressions mention only Copy variables; there are no do-while loops and no
    loops over ranges. *)
Definition new_name (env : senv) (x : nat) : Prop := lookup env x = None.
Fixpoint fine_s (env : senv) (t : stmt) : Prop :=
  match t with
  | SExpr e | SReturn e => fine env Used e
  | SBlock l => fine_l env l
  | SIf c t => fine env Used c /\ fine_s env t
  | SIfElse c t e => fine env Used c /\ fine_s env t /\ fine_s env e
  | SMatch e cs => fine env Used e /\ fine_c env cs /\ only_copy env (assigned_c cs)
  | SUnless c t => fine env Used c /\ fine_s env t /\ only_copy env (assigned_s t)
  | SWhile c b => fine env Used c /\ fine_s env b /\ only_copy env (moved_in false c ++ moved_s b ++ assigned_in c ++ assigned_s b)
  | SFor x t i c step b =>
    let env' := (x, t) :: env in
    new_name env x /\ fine env Tracked i /\ fine env' Used c /\ fine env' Used step /\ fine_s env' b
    /\ only_copy env' (moved_in false c ++ moved_in false step ++ moved_s b ++ assigned_in c ++ assigned_in step ++ assigned_s b)
  | SLoop b => fine_s env b /\ only_copy env (moved_s b ++ assigned_s b)
  | SDo _ _ | SRange _ _ => False
  | SBreak | SContinue => True
  end
with fine_l (env : senv) (l : items) : Prop :=
  match l with
  | Nil => True
  | Then t l => fine_s env t /\ fine_l env l
  | Let x t e l => new_name env x /\ fine env Tracked e /\ fine_l ((x, t) :: env) l
  | Defer e l => fine env Used e /\ (forall x, In x (names e) -> lookup env x = Some TCopy) /\ fine_l env l
  end
with fine_c (env : senv) (cs : cases) : Prop := match cs with CNil => True | CCons _ b cs => fine_s env b /\ fine_c env cs end.
