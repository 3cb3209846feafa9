(** What statements mean. *)
From Verif Require Import Common Defer_Model.
Local Open Scope nat_scope.

Section Meaning.
(** Any states, values and meaning of actions, conditions and expressions *)
Context {St V : Type}.
Variable act : nat -> St -> St.
Variable cond : nat -> St -> bool * St.
Variable val : nat -> St -> V * St.

Inductive outcome := ONormal | OBreak | OContinue | OReturn (v : option V).

(** Running out of iterations of a loop gives None: every loop may make [n] tests. *)
Fixpoint while_loop (n : nat) (test : St -> bool * St) (body : St -> option (outcome * St)) (step : St -> St) (s : St) : option (outcome * St) :=
  match n with
  | O => None
  | S n =>
    let '(b, s) := test s in
    if b then
      match body s with
      | Some (ONormal, s) | Some (OContinue, s) => while_loop n test body step (step s)
      | Some (OBreak, s) => Some (ONormal, s)
      | r => r
      end
    else Some (ONormal, s)
  end.
Fixpoint do_loop (n : nat) (test : St -> bool * St) (body : St -> option (outcome * St)) (s : St) : option (outcome * St) :=
  match n with
  | O => None
  | S n =>
    match body s with
    | Some (ONormal, s) | Some (OContinue, s) => let '(b, s) := test s in if b then do_loop n test body s else Some (ONormal, s)
    | Some (OBreak, s) => Some (ONormal, s)
    | r => r
    end
  end.
Definition forever : St -> bool * St := fun s => (true, s).
Definition id_step : St -> St := fun s => s.

(** The deferred statements of a block, the newest first, each run once; what they return
    is the outcome the block already had *)
Fixpoint run_all (l : list (St -> option (outcome * St))) (o : outcome) (s : St) : option (outcome * St) :=
  match l with
  | [] => Some (o, s)
  | d :: l => match d s with Some (_, s) => run_all l o s | None => None end
  end.

(** A block collects its deferred statements; however it is left, they are run then. *)
Fixpoint dexec (n : nat) (d : dstmt) (s : St) {struct d} : option (outcome * St) :=
  match d with
  | DPrim a => Some (ONormal, act a s)
  | DBlock l => dexecs n l [] s
  | DIfThen c d => let '(b, s) := cond c s in if b then dexec n d s else Some (ONormal, s)
  | DIfElse c t e => let '(b, s) := cond c s in if b then dexecs n t [] s else dexec n e s
  | DWhile c d => while_loop n (cond c) (dexec n d) id_step s
  | DDo l c => do_loop n (cond c) (dexecs n l []) s
  | DFor c step d => while_loop n (cond c) (dexec n d) (act step) s
  | DLoop l => while_loop n forever (dexecs n l []) id_step s
  end
with dexecs (n : nat) (l : ditems) (own : list (St -> option (outcome * St))) (s : St) {struct l} : option (outcome * St) :=
  match l with
  | DNil => run_all own ONormal s
  | DThen d l =>
    match dexec n d s with
    | Some (ONormal, s) => dexecs n l own s
    | Some (o, s) => run_all own o s
    | None => None
    end
  | DDefer d l => dexecs n l (dexec n d :: own) s
  end.
Fixpoint exec (n : nat) (t : stmt) (s : St) {struct t} : option (outcome * St) :=
  match t with
  | Prim a => Some (ONormal, act a s)
  | Block l => execs n l [] s
  | IfThen c t => let '(b, s) := cond c s in if b then exec n t s else Some (ONormal, s)
  | IfElse c t e => let '(b, s) := cond c s in if b then execs n t [] s else exec n e s
  | While c t => while_loop n (cond c) (exec n t) id_step s
  | Do l c => do_loop n (cond c) (execs n l []) s
  | For c step t => while_loop n (cond c) (exec n t) (act step) s
  | Loop l => while_loop n forever (execs n l []) id_step s
  | Break => Some (OBreak, s)
  | Continue => Some (OContinue, s)
  | Return None => Some (OReturn None, s)
  | Return (Some e) | ReturnSlice e => let '(v, s) := val e s in Some (OReturn (Some v), s)
  end
with execs (n : nat) (l : items) (own : list (St -> option (outcome * St))) (s : St) {struct l} : option (outcome * St) :=
  match l with
  | Nil => run_all own ONormal s
  | Then t l =>
    match exec n t s with
    | Some (ONormal, s) => execs n l own s
    | Some (o, s) => run_all own o s
    | None => None
    end
  | Defer d l => execs n l (dexec n d :: own) s
  end.

(** C *)
Fixpoint texec (n : nat) (t : tstmt) (s : St) {struct t} : option (outcome * St) :=
  let texecs := fix texecs (l : list tstmt) (s : St) : option (outcome * St) :=
    match l with
    | [] => Some (ONormal, s)
    | t :: l => match texec n t s with Some (ONormal, s) => texecs l s | r => r end
    end in
  match t with
  | TPrim a => Some (ONormal, act a s)
  | TBlock l => texecs l s
  | TIf c t => let '(b, s) := cond c s in if b then texec n t s else Some (ONormal, s)
  | TIfElse c t e => let '(b, s) := cond c s in if b then texec n t s else texec n e s
  | TWhile c t => while_loop n (cond c) (texec n t) id_step s
  | TDo t c => do_loop n (cond c) (texec n t) s
  | TFor c step t => while_loop n (cond c) (texec n t) (act step) s
  | TForever t => while_loop n forever (texec n t) id_step s
  | TBreak => Some (OBreak, s)
  | TContinue => Some (OContinue, s)
  | TReturn None => Some (OReturn None, s)
  | TReturn (Some e) => let '(v, s) := val e s in Some (OReturn (Some v), s)
  | TRetAfter e l => 
    let '(v, s) := val e s in
    match texecs l s with Some (ONormal, s) => Some (OReturn (Some v), s) | r => r end
  end.
Definition texecs (n : nat) (l : list tstmt) (s : St) : option (outcome * St) := texec n (TBlock l) s.
End Meaning.

(** How many deferred statements a text has, and how deeply its loops nest *)
Fixpoint dcount (d : dstmt) : nat :=
  match d with
  | DPrim _ => 0
  | DBlock l | DDo l _ | DLoop l => dcounts l
  | DIfThen _ d | DWhile _ d | DFor _ _ d => dcount d
  | DIfElse _ t e => dcounts t + dcount e
  end
with dcounts (l : ditems) : nat :=
  match l with DNil => 0 | DThen d l => dcount d + dcounts l | DDefer d l => 1 + dcount d + dcounts l end.
Fixpoint count (s : stmt) : nat :=
  match s with
  | Block l | Do l _ | Loop l => counts l
  | IfThen _ s | While _ s | For _ _ s => count s
  | IfElse _ t e => counts t + count e
  | _ => 0
  end
with counts (l : items) : nat :=
  match l with Nil => 0 | Then s l => count s + counts l | Defer d l => 1 + dcount d + counts l end.
Fixpoint ddepth (d : dstmt) : nat :=
  match d with
  | DPrim _ => 0
  | DBlock l => ddepths l
  | DDo l _ | DLoop l => 1 + ddepths l
  | DIfThen _ d => ddepth d
  | DWhile _ d | DFor _ _ d => 1 + ddepth d
  | DIfElse _ t e => Nat.max (ddepths t) (ddepth e)
  end
with ddepths (l : ditems) : nat :=
  match l with DNil => 0 | DThen d l | DDefer d l => Nat.max (ddepth d) (ddepths l) end.
(** Loops outside deferred statements, and the deepest deferred statement *)
Fixpoint depth (s : stmt) : nat :=
  match s with
  | Block l => depths l
  | Do l _ | Loop l => 1 + depths l
  | IfThen _ s => depth s
  | While _ s | For _ _ s => 1 + depth s
  | IfElse _ t e => Nat.max (depths t) (depth e)
  | _ => 0
  end
with depths (l : items) : nat :=
  match l with Nil => 0 | Then s l => Nat.max (depth s) (depths l) | Defer d l => depths l end.
Fixpoint deferred_depth (s : stmt) : nat :=
  match s with
  | Block l | Do l _ | Loop l => deferred_depths l
  | IfThen _ s | While _ s | For _ _ s => deferred_depth s
  | IfElse _ t e => Nat.max (deferred_depths t) (deferred_depth e)
  | _ => 0
  end
with deferred_depths (l : items) : nat :=
  match l with Nil => 0 | Then s l => Nat.max (deferred_depth s) (deferred_depths l) | Defer d l => Nat.max (ddepth d) (deferred_depths l) end.

(** [all] is the number of deferred statements that wait in the function, [top] that in
    the innermost loop (None outside loops).
    A jump is the body of a guard or loop without braces only where no deferred statement
    waits for it; an array literal is returned as a slice only where none waits; break and
    continue are in loops. *)
Definition braced (all : nat) (top : option nat) (s : stmt) : Prop :=
  match s with
  | Break | Continue => top = Some 0
  | Return None => all = 0
  | _ => True
  end.
Fixpoint ok (all : nat) (top : option nat) (s : stmt) : Prop :=
  match s with
  | Prim _ | Return _ => True
  | Block l => oks all top l
  | IfThen _ s => braced all top s /\ ok all top s
  | IfElse _ t e => oks all top t /\ braced all top e /\ ok all top e
  | While _ s | For _ _ s => braced all (Some 0) s /\ ok all (Some 0) s
  | Do l _ | Loop l => oks all (Some 0) l
  | Break | Continue => top <> None
  | ReturnSlice _ => all = 0
  end
with oks (all : nat) (top : option nat) (l : items) : Prop :=
  match l with
  | Nil => True
  | Then s l => ok all top s /\ oks all top l
  | Defer _ l => oks (S all) (option_map S top) l
  end.
