(** Model of the code generated for the try operator, `e?`: codegen.c:1302-1371, within the
    code for blocks, returns and deferred statements (codegen_stmt.c:951-963, 1558-1685).

    Simplifications: statements, conditions and expressions are numbers with any meaning; a
    deferred statement stands for a user's defer and for the drop of a variable, which are
    emitted at the same places (Defer_Model.v, Raii_Model.v: also for loops, which are left
    out here); payloads are integers. *)
From Verif Require Import Common.
Local Open Scope nat_scope.

(** A result type: an enum with the tags of its variants Ok and Err, or the struct of
    std/result.zc with is_ok, val and err, or the struct of std/option.zc *)
Inductive rtype := Enum (ok err : nat) | Struct | Optional.
(** A value of such a type *)
Inductive cval := CEnum (tag : nat) (payload : Z) | CStruct (is_ok : bool) (val err : Z) | COptional (is_some : bool) (val : Z).

(** Statements; [LetTry x e] is let x = e?; *)
Inductive stmt :=
| Act (a : nat)
| LetTry (x e : nat)
| Block (l : items)
| If (c : nat) (t e : items)
| Return (e : nat)
with items :=
| Nil
| Then (s : stmt) (l : items)
| Defer (d : nat) (l : items).

(** C.  [TTry x e]: x = ({ auto _try = e; if (it is an error) return (error); _try's value; });
    [TReturn e ds]: { auto _z_ret = e; ds return _z_ret; } *)
Inductive tstmt :=
| TAct (a : nat)
| TTry (x e : nat)
| TBlock (l : list tstmt)
| TIf (c : nat) (t e : list tstmt)
| TReturn (e : nat) (ds : list nat).

(** [pend]: the deferred statements of the enclosing blocks, innermost and newest first;
    [own]: those of this block *)
Fixpoint emit (pend : list nat) (s : stmt) : tstmt :=
  match s with
  | Act a => TAct a
  | LetTry x e => TTry x e                                   (* codegen.c:1302-1371 *)
  | Block l => TBlock (emits pend [] l)                      (* codegen_stmt.c:951-963 *)
  | If c t e => TIf c (emits pend [] t) (emits pend [] e)
  | Return e => TReturn e pend                               (* codegen_stmt.c:1650-1685 *)
  end
with emits (pend own : list nat) (l : items) : list tstmt :=
  match l with
  | Nil => map TAct own
  | Then s l => emit (own ++ pend) s :: emits pend own l
  | Defer d l => emits pend (d :: own) l
  end.
Definition emit_function (l : items) : list tstmt := emits [] [] l.

(** codegen.c:1302-1371 for a function of type [r] and an operand [v]: the payload to go on
    with, or the value to return.  [None]: C has no such member (no program).  The tag it
    compares with is that of the function's type. *)
Definition try_value (r : rtype) (v : cval) : option (Z + cval) :=
  match r, v with
  | Enum ok err, CEnum tag p => Some (if tag =? err then inr (CEnum err p) else inl p)
  | Struct, CStruct is_ok x e => Some (if is_ok then inl x else inr (CStruct false 0 e))
  | _, _ => None
  end.

Section Run.
  Context {St : Type}.
  Variable act : nat -> St -> St.
  Variable cond : nat -> St -> bool * St.
  (** The value of an expression of a result type, and the assignment to a variable *)
  Variable val : nat -> St -> cval * St.
  Variable set : nat -> Z -> St -> St.
  (** The function's type *)
  Variable r : rtype.

  (** [Stuck]: the program does not compile *)
  Inductive outcome := Normal | Returned (v : cval) | Stuck.
  Fixpoint acts (l : list nat) (s : St) : St := match l with [] => s | a :: l => acts l (act a s) end.
  Fixpoint texec (t : tstmt) (s : St) : outcome * St :=
    let texecs := fix texecs (l : list tstmt) (s : St) : outcome * St :=
      match l with
      | [] => (Normal, s)
      | t :: l => match texec t s with (Normal, s) => texecs l s | o => o end
      end in
    match t with
    | TAct a => (Normal, act a s)
    | TTry x e =>
      let '(v, s) := val e s in
      match try_value r v with
      | Some (inl p) => (Normal, set x p s)
      | Some (inr w) => (Returned w, s)
      | None => (Stuck, s)
      end
    | TBlock l => texecs l s
    | TIf c t e => let '(b, s) := cond c s in if b then texecs t s else texecs e s
    | TReturn e ds => let '(v, s) := val e s in (Returned v, acts ds s)
    end.
  Fixpoint texecs (l : list tstmt) (s : St) : outcome * St :=
    match l with
    | [] => (Normal, s)
    | t :: l => match texec t s with (Normal, s) => texecs l s | o => o end
    end.
End Run.
