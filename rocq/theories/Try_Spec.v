(** The meaning of e?: go on with the value, or leave the function with the error, running
    what was deferred as on every other way out. *)
From Verif Require Import Common Try_Model.
Local Open Scope nat_scope.

Inductive result := Good (v : Z) | Bad (e : Z).
(** How a type represents a result *)
Definition repr (t : rtype) (x : result) : cval :=
  match t, x with
  | Enum ok err, Good v => CEnum ok v
  | Enum ok err, Bad e => CEnum err e
  | Struct, Good v => CStruct true v 0
  | Struct, Bad e => CStruct false 0 e
  | Optional, Good v => COptional true v
  | Optional, Bad _ => COptional false 0
  end.

Section Meaning.
  Context {St : Type}.
  Variable act : nat -> St -> St.
  Variable cond : nat -> St -> bool * St.
  Variable val : nat -> St -> result * St.
  Variable set : nat -> Z -> St -> St.

  Inductive ending := Normally | Returns (x : result).
  Fixpoint run_deferred (l : list nat) (s : St) : St := match l with [] => s | a :: l => run_deferred l (act a s) end.
  (** However a block is left, its deferred statements are run, the newest first *)
  Fixpoint exec (t : stmt) (s : St) : ending * St :=
    match t with
    | Act a => (Normally, act a s)
    | LetTry x e =>
      let '(v, s) := val e s in
      match v with Good p => (Normally, set x p s) | Bad _ => (Returns v, s) end
    | Block l => execs [] l s
    | If c t e => let '(b, s) := cond c s in if b then execs [] t s else execs [] e s
    | Return e => let '(v, s) := val e s in (Returns v, s)
    end
  with execs (own : list nat) (l : items) (s : St) : ending * St :=
    match l with
    | Nil => (Normally, run_deferred own s)
    | Then t l =>
      match exec t s with
      | (Normally, s) => execs own l s
      | (e, s) => (e, run_deferred own s)
      end
    | Defer d l => execs (d :: own) l s
    end.
End Meaning.

(** No ? where something is deferred; [p]: something is *)
Fixpoint unburdened (p : bool) (s : stmt) : Prop :=
  match s with
  | Act _ | Return _ => True
  | LetTry _ _ => p = false
  | Block l => unburdened_all p l
  | If _ t e => unburdened_all p t /\ unburdened_all p e
  end
with unburdened_all (p : bool) (l : items) : Prop :=
  match l with
  | Nil => True
  | Then s l => unburdened p s /\ unburdened_all p l
  | Defer _ l => unburdened_all true l
  end.
(** Types whose results ? can tell apart with the code for type [r] *)
Definition alike (r t : rtype) : Prop :=
  match r, t with
  | Enum ok err, Enum ok' err' => ok = ok' /\ err = err' /\ ok <> err
  | Struct, Struct => True
  | _, _ => False
  end.

Section Typing.
  (** The function's type, and that of each expression *)
  Variable r : rtype.
  Variable ty : nat -> rtype.
  (** An operand of ? is of a type like the function's; a returned expression is of that type *)
  Fixpoint typed (s : stmt) : Prop :=
    match s with
    | Act _ => True
    | LetTry _ e => alike r (ty e)
    | Block l => typed_all l
    | If _ t e => typed_all t /\ typed_all e
    | Return e => ty e = r
    end
  with typed_all (l : items) : Prop :=
    match l with Nil => True | Then s l => typed s /\ typed_all l | Defer _ l => typed_all l end.

  Context {St : Type}.
  Variable val : nat -> St -> result * St.
  (** The expressions as the program computes them: represented in their types *)
  Definition cval_of (e : nat) (s : St) : cval * St := let '(v, s) := val e s in (repr (ty e) v, s).
  (** The function's outcome, represented in its type *)
  Definition same (x : ending * St) : outcome * St :=
    match x with
    | (Normally, s) => (Normal, s)
    | (Returns v, s) => (Returned (repr r v), s)
    end.
End Typing.
