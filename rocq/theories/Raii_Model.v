(** The code generated for variables whose type implements Drop: drop flags, moves, and
    the drops at the end of scopes and before jumps.
    src/codegen/codegen_stmt.c:783-826 (parameters, function end), 951-963 (blocks),
    965-1135 (let), 1192-1281 (while, break, continue), 1558-1685 (return);
    src/codegen/codegen_utils.c:903-984 (moves); src/codegen/codegen.c:410-434 (assignment),
    920-930 (arguments).

    Every variable, parameter and result of the model has a type that implements Drop; other
    variables play no part.  An object is what a constructor creates; a variable holds one,
    or nothing when it was zeroed.  Not modelled: members, captured variables, global
    variables, user-written defers (see Defer_Model), goto, match, for loops. *)
From Verif Require Import Common.
Local Open Scope nat_scope.

Definition name := nat.

(** Expressions of a type that implements Drop: a new object, a variable, a call *)
Inductive expr :=
| New
| Var (x : name)
| Call (f : nat) (args : list expr).

(** [Decl]: let x: T; without a value.  [Do]: a call as a statement. *)
Inductive stmt :=
| Let (x : name) (e : expr)
| Decl (x : name)
| Assign (x : name) (e : expr)
| Do (f : nat) (args : list expr)
| Block (l : items)
| If (t e : items)
| While (l : items)
| Break
| Continue
| Return (e : option expr)
with items :=
| Nil
| Then (s : stmt) (l : items).

(** A function: parameters, whether it returns an object, body *)
Record func := mkfunc { params : list name; returns : bool; body : items }.

(** The generated C statements.  [TDrop x]: if (__z_drop_flag_x) T__Drop_glue(&x);
    [TRetVar x ds]: return ({ _z_ret_mv = x; memset(&x, 0); ds _z_ret_mv; });
    [TRetVal e ds]: { _z_ret = e; ds return _z_ret; } *)
Inductive tstmt :=
| TLet (x : name) (e : expr)
| TDecl (x : name)
| TAssign (x : name) (e : expr)
| TDo (f : nat) (args : list expr)
| TDrop (x : name)
| TBlock (l : list tstmt)
| TIf (t e : list tstmt)
| TWhile (l : list tstmt)
| TBreak
| TContinue
| TRetVar (x : name) (ds : list name)
| TRetVal (e : expr) (ds : list name)
| TReturn.

(** codegen_stmt.c:1011-1014: MAX_DEFER is 1024 (codegen.h); a variable beyond is not
    dropped *)
Definition push (stack : list name) (x : name) : list name :=
  if (N.of_nat (length stack) <? 1024)%N then x :: stack else stack.

(** The entries above height b, the newest first *)
Definition above (b : nat) (stack : list name) : list name := firstn (length stack - b) stack.

(** codegen_stmt.c:951-963 NODE_BLOCK: [emit_items l base stack bnds] is the text inside the
    braces: the statements and then the drops of what they pushed above [base].  [stack] is
    defer_stack, the newest first; [bnds] is loop_defer_boundary, the innermost first. *)
Fixpoint emit (s : stmt) (stack : list name) (bnds : list nat) {struct s} : list tstmt * list name :=
  match s with
  | Let x e => ([TLet x e], push stack x)
  | Decl x => ([TDecl x], push stack x)
  | Assign x e => ([TAssign x e], stack)
  | Do f args => ([TDo f args], stack)
  | Block l => ([TBlock (emit_items l (length stack) stack bnds)], stack)
  | If t e =>
    ([TIf (emit_items t (length stack) stack bnds) (emit_items e (length stack) stack bnds)], stack)
  | While l => ([TWhile (emit_items l (length stack) stack (length stack :: bnds))], stack)
  | Break =>
    (match bnds with b :: _ => map TDrop (above b stack) | [] => [] end ++ [TBreak], stack)
  | Continue =>
    (match bnds with b :: _ => map TDrop (above b stack) | [] => [] end ++ [TContinue], stack)
  | Return None => (map TDrop stack ++ [TReturn], stack)
  | Return (Some (Var x)) => ([TRetVar x stack], stack)
  | Return (Some e) => ([TRetVal e stack], stack)
  end
with emit_items (l : items) (base : nat) (stack : list name) (bnds : list nat) {struct l} : list tstmt :=
  match l with
  | Nil => map TDrop (above base stack)
  | Then s l => let '(c, stack) := emit s stack bnds in c ++ emit_items l base stack bnds
  end.

(** codegen_stmt.c:783-826 *)
Definition emit_func (f : func) : list tstmt :=
  let stack := fold_left push (params f) [] in
  [TBlock (emit_items (body f) (length stack) stack [])] ++ map TDrop stack.

(** ** What the C program does *)
(** Created o; the glue called on a variable holding o, or on a zeroed one; o is in no
    variable any more and was not dropped *)
Inductive event := Created (o : nat) | Dropped (v : option nat) | Lost (o : nat).

(** A variable and its drop flag *)
Record slot := mkslot { flag : bool; val : option nat }.
Definition env := list (name * slot).
(** [next]: the next object; [tick]: how many conditions were evaluated; [log]: the newest
    event first *)
Record state := mkst { next : nat; tick : nat; log : list event }.

Fixpoint find (x : name) (e : env) : option slot :=
  match e with
  | [] => None
  | (y, s) :: e => if x =? y then Some s else find x e
  end.
Fixpoint put (x : name) (s : slot) (e : env) : env :=
  match e with
  | [] => []
  | (y, t) :: e => if x =? y then (y, s) :: e else (y, t) :: put x s e
  end.
Definition say (ev : event) (s : state) : state := mkst (next s) (tick s) (ev :: log s).
Definition lose (v : option nat) (s : state) : state := match v with Some o => say (Lost o) s | None => s end.
Definition create (s : state) : state := mkst (S (next s)) (tick s) (Created (next s) :: log s).

(** if (__z_drop_flag_x) T__Drop_glue(&x); an object whose flag is off is lost when the
    variable ends *)
Definition drop (x : name) (e : env) (s : state) : option state :=
  match find x e with
  | None => None
  | Some sl => Some (if flag sl then say (Dropped (val sl)) s else lose (val sl) s)
  end.
Fixpoint drops (xs : list name) (e : env) (s : state) : option state :=
  match xs with
  | [] => Some s
  | x :: xs => match drop x e s with Some s => drops xs e s | None => None end
  end.

(** The block's variables end: back to n variables *)
Definition keep {A} (n : nat) (e : list A) : list A := skipn (length e - n) e.

(** How a statement ends: [Bad] is a program C rejects or gives no meaning to, [Timeout]
    that the execution was cut off *)
Inductive out := Normal | Broke | Continued | Returned (v : option (option nat)) | Bad | Timeout.
(** What an expression or call gives *)
Inductive got (A : Type) := Got (v : A) | GBad | GTimeout.
Arguments Got {A} _. Arguments GBad {A}. Arguments GTimeout {A}.

Section Run.
Variable prog : list func.
(** The n-th evaluated condition *)
Variable choose : nat -> bool.

(** codegen_utils.c:903-984: the value of a moved variable is copied, its flag cleared and
    the variable zeroed.  C leaves the order of arguments open; it is left to right here. *)
Fixpoint eval (fuel : nat) (x : expr) (e : env) (s : state) {struct fuel} : env * state * got (option nat) :=
  match fuel with
  | 0 => (e, s, GTimeout)
  | S n =>
    match x with
    | New => (e, create s, Got (Some (next s)))
    | Var y =>
      match find y e with
      | Some sl => (put y (mkslot false None) e, s, Got (val sl))
      | None => (e, s, GBad)
      end
    | Call f args =>
      match evals n args e s with
      | (e, s, Got vs) =>
        match call n f vs s with
        | (s, Got (Some v)) => (e, s, Got v)
        | (s, Got None) | (s, GBad) => (e, s, GBad)
        | (s, GTimeout) => (e, s, GTimeout)
        end
      | (e, s, GBad) => (e, s, GBad)
      | (e, s, GTimeout) => (e, s, GTimeout)
      end
    end
  end
with evals (fuel : nat) (xs : list expr) (e : env) (s : state) {struct fuel} : env * state * got (list (option nat)) :=
  match fuel with
  | 0 => (e, s, GTimeout)
  | S n =>
    match xs with
    | [] => (e, s, Got [])
    | x :: xs =>
      match eval n x e s with
      | (e, s, Got v) =>
        match evals n xs e s with
        | (e, s, Got vs) => (e, s, Got (v :: vs))
        | r => r
        end
      | (e, s, GBad) => (e, s, GBad)
      | (e, s, GTimeout) => (e, s, GTimeout)
      end
    end
  end
(** Calling a function with the values of its parameters; [Got None]: it returns no value *)
with call (fuel : nat) (f : nat) (vs : list (option nat)) (s : state) {struct fuel} : state * got (option (option nat)) :=
  match fuel with
  | 0 => (s, GTimeout)
  | S n =>
    match nth_error prog f with
    | None => (s, GBad)
    | Some fn =>
      if length vs =? length (params fn) then
        let e := rev (combine (params fn) (map (mkslot true) vs)) in
        match execs n (emit_func fn) e s, returns fn with
        | (_, s, Returned (Some v)), true => (s, Got (Some v))
        | (_, s, Returned None), false | (_, s, Normal), false => (s, Got None)
        | (_, s, Timeout), _ => (s, GTimeout)
        | (_, s, _), _ => (s, GBad)
        end
      else (s, GBad)
    end
  end
with exec (fuel : nat) (t : tstmt) (e : env) (s : state) {struct fuel} : env * state * out :=
  match fuel with
  | 0 => (e, s, Timeout)
  | S n =>
    match t with
    | TLet x ex =>
      (* the initialiser is in the scope of x, which has no value yet *)
      if match ex with Var y => y =? x | _ => false end then (e, s, Bad)
      else match eval n ex e s with
      | (e, s, Got v) => ((x, mkslot true v) :: e, s, Normal)
      | (e, s, GBad) => (e, s, Bad)
      | (e, s, GTimeout) => (e, s, Timeout)
      end
    | TDecl x => ((x, mkslot true None) :: e, s, Normal)
    | TAssign x ex =>
      match eval n ex e s with
      | (e, s, Got v) =>
        match find x e with
        | Some sl => (put x (mkslot (flag sl) v) e, lose (val sl) s, Normal)
        | None => (e, s, Bad)
        end
      | (e, s, GBad) => (e, s, Bad)
      | (e, s, GTimeout) => (e, s, Timeout)
      end
    | TDo f args =>
      match evals n args e s with
      | (e, s, Got vs) =>
        match call n f vs s with
        | (s, Got (Some v)) => (e, lose v s, Normal)
        | (s, Got None) => (e, s, Normal)
        | (s, GBad) => (e, s, Bad)
        | (s, GTimeout) => (e, s, Timeout)
        end
      | (e, s, GBad) => (e, s, Bad)
      | (e, s, GTimeout) => (e, s, Timeout)
      end
    | TDrop x =>
      match drop x e s with Some s => (e, s, Normal) | None => (e, s, Bad) end
    | TBlock l =>
      match execs n l e s with (e', s, o) => (keep (length e) e', s, o) end
    | TIf t f =>
      let s' := mkst (next s) (S (tick s)) (log s) in
      match execs n (if choose (tick s) then t else f) e s' with (e', s, o) => (keep (length e) e', s, o) end
    | TWhile l =>
      let s' := mkst (next s) (S (tick s)) (log s) in
      if choose (tick s) then
        match execs n l e s' with
        | (e', s, Normal) | (e', s, Continued) => exec n (TWhile l) (keep (length e) e') s
        | (e', s, Broke) => (keep (length e) e', s, Normal)
        | (e', s, o) => (keep (length e) e', s, o)
        end
      else (e, s', Normal)
    | TBreak => (e, s, Broke)
    | TContinue => (e, s, Continued)
    | TRetVar x ds =>
      match find x e with
      | None => (e, s, Bad)
      | Some sl =>
        let e := put x (mkslot (flag sl) None) e in
        match drops ds e s with Some s => (e, s, Returned (Some (val sl))) | None => (e, s, Bad) end
      end
    | TRetVal ex ds =>
      match eval n ex e s with
      | (e, s, Got v) =>
        match drops ds e s with Some s => (e, s, Returned (Some v)) | None => (e, s, Bad) end
      | (e, s, GBad) => (e, s, Bad)
      | (e, s, GTimeout) => (e, s, Timeout)
      end
    | TReturn => (e, s, Returned None)
    end
  end
with execs (fuel : nat) (l : list tstmt) (e : env) (s : state) {struct fuel} : env * state * out :=
  match fuel with
  | 0 => (e, s, Timeout)
  | S n =>
    match l with
    | [] => (e, s, Normal)
    | t :: l =>
      match exec n t e s with
      | (e, s, Normal) => execs n l e s
      | r => r
      end
    end
  end.

(** The program: function 0, without arguments *)
Definition run (fuel : nat) : state * got (option (option nat)) := call fuel 0 [] (mkst 0 0 []).
End Run.
