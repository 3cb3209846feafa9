(** How functions run, step by step. *)
From Verif Require Import Common Ret_Model.
Local Open Scope nat_scope.

(** What remains to be done after a statement *)
Inductive cont :=
| Stop
| Seq (l : items) (k : cont)
| InWhile (c : nat) (s : stmt) (k : cont)
| InDo (s : stmt) (c : nat) (k : cont).

Section Run.
(** Any states and values, and any meaning of actions, conditions, expressions and patterns *)
Context {St V : Type}.
Variable act : nat -> St -> St.
Variable cond : nat -> St -> bool * St.
Variable val : nat -> St -> V * St.
Variable fits : nat -> V -> bool.
(** In the language a case with a guard is taken only if the guard holds.  The generated C
    does not test guards (codegen_stmt.c:186-540 codegen_match_internal). *)
Variable guards : bool.
Variable body : items.

Inductive config :=
| At (s : stmt) (k : cont) (st : St)
| In (l : items) (k : cont) (st : St)
| Next (k : cont) (st : St)
| Returned (st : St)
| FellOff (st : St).

(** The first case whose pattern fits and whose guard holds *)
Fixpoint choose (cs : cases) (v : V) (st : St) : option stmt * St :=
  match cs with
  | CNil => (None, st)
  | CCons p g b cs =>
    if match p with None => true | Some p => fits p v end then
      match g with
      | Some g => if guards then let '(ok, st) := cond g st in if ok then (Some b, st) else choose cs v st else (Some b, st)
      | None => (Some b, st)
      end
    else choose cs v st
  end.
Fixpoint after_break (k : cont) : option cont :=
  match k with Stop => None | Seq _ k => after_break k | InWhile _ _ k => Some k | InDo _ _ k => Some k end.
Fixpoint after_continue (k : cont) : option cont :=
  match k with Stop => None | Seq _ k => after_continue k | InWhile _ _ _ | InDo _ _ _ => Some k end.
(** Where a label is, and what follows it *)
Fixpoint find (lbl : nat) (s : stmt) (k : cont) : option cont :=
  match s with
  | Label l => if l =? lbl then Some k else None
  | Block l => finds lbl l k
  | IfThen _ t => find lbl t k
  | IfElse _ t e => match find lbl t k with Some r => Some r | None => find lbl e k end
  | Match _ cs => findc lbl cs k
  | While c s => find lbl s (InWhile c s k)
  | Do s c => find lbl s (InDo s c k)
  | _ => None
  end
with finds (lbl : nat) (l : items) (k : cont) : option cont :=
  match l with
  | Nil => None
  | Then s l => match find lbl s (Seq l k) with Some r => Some r | None => finds lbl l k end
  end
with findc (lbl : nat) (cs : cases) (k : cont) : option cont :=
  match cs with
  | CNil => None
  | CCons _ _ b cs => match find lbl b k with Some r => Some r | None => findc lbl cs k end
  end.

(** One step; None for a jump that goes nowhere, which C rejects *)
Definition step (x : config) : option config :=
  match x with
  | At (Prim a) k st => Some (Next k (act a st))
  | At Return k st => Some (Returned st)
  | At (Block l) k st => Some (In l k st)
  | At (IfThen c t) k st => let '(b, st) := cond c st in Some (if b then At t k st else Next k st)
  | At (IfElse c t e) k st => let '(b, st) := cond c st in Some (At (if b then t else e) k st)
  | At (Match e cs) k st =>
    let '(v, st) := val e st in
    match choose cs v st with (Some b, st) => Some (At b k st) | (None, st) => Some (Next k st) end
  | At (While c s) k st => let '(b, st) := cond c st in Some (if b then At s (InWhile c s k) st else Next k st)
  | At (Do s c) k st => Some (At s (InDo s c k) st)
  | At Break k st => match after_break k with Some k => Some (Next k st) | None => None end
  | At Continue k st => match after_continue k with Some k => Some (Next k st) | None => None end
  | At (Goto l) k st => match finds l body Stop with Some k => Some (Next k st) | None => None end
  | At (Label _) k st => Some (Next k st)
  | In Nil k st => Some (Next k st)
  | In (Then s l) k st => Some (At s (Seq l k) st)
  | Next Stop st => Some (FellOff st)
  | Next (Seq l k) st => Some (In l k st)
  | Next (InWhile c s k) st => Some (At (While c s) k st)
  | Next (InDo s c k) st => let '(b, st) := cond c st in Some (if b then At s (InDo s c k) st else Next k st)
  | Returned _ | FellOff _ => Some x
  end.
Fixpoint steps (n : nat) (x : config) : option config :=
  match n with
  | O => Some x
  | S n => match step x with Some x => steps n x | None => None end
  end.
(** The function, after n steps *)
Definition run (n : nat) (st : St) : option config := steps n (In body Stop st).
End Run.

(** No goto anywhere *)
Fixpoint no_goto (s : stmt) : Prop :=
  match s with
  | Goto _ => False
  | Block l => no_gotos l
  | IfThen _ t => no_goto t
  | IfElse _ t e => no_goto t /\ no_goto e
  | Match _ cs => no_gotoc cs
  | While _ s | Do s _ => no_goto s
  | _ => True
  end
with no_gotos (l : items) : Prop := match l with Nil => True | Then s l => no_goto s /\ no_gotos l end
with no_gotoc (cs : cases) : Prop := match cs with CNil => True | CCons _ _ b cs => no_goto b /\ no_gotoc cs end.
(** No "_" case has a guard *)
Fixpoint plain (s : stmt) : Prop :=
  match s with
  | Block l => plains l
  | IfThen _ t => plain t
  | IfElse _ t e => plain t /\ plain e
  | Match _ cs => plainc cs
  | While _ s | Do s _ => plain s
  | _ => True
  end
with plains (l : items) : Prop := match l with Nil => True | Then s l => plain s /\ plains l end
with plainc (cs : cases) : Prop := match cs with CNil => True | CCons p g b cs => (p = None -> g = None) /\ plain b /\ plainc cs end.
