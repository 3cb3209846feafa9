(** The missing-return check (src/analysis/typecheck.c:834-951).

    Expressions, actions and patterns are numbers whose meaning is left open.  One kind of
    statement stands for each group of statements that the check treats alike:
    [IfThen] for if without else, unless, guard and guard let; [While] for while, for, for
    over a range, repeat and loop; [Prim] for declarations, expressions, assert, defer and
    so on. *)
From Verif Require Import Common.
Local Open Scope nat_scope.

Inductive stmt :=
| Prim (a : nat)
| Return
| Block (l : items)
| IfThen (c : nat) (t : stmt)
| IfElse (c : nat) (t e : stmt)
| Match (e : nat) (cs : cases)
| While (c : nat) (s : stmt)
| Do (s : stmt) (c : nat)
| Break
| Continue
| Goto (lbl : nat)
| Label (lbl : nat)
with items :=
| Nil
| Then (s : stmt) (l : items)
(** A case has a pattern, None for "_" (parser_stmt.c:283), and maybe a guard *)
with cases :=
| CNil
| CCons (p : option nat) (guard : option nat) (body : stmt) (cs : cases).

(** typecheck.c:836-912 stmt_always_returns, block_always_returns *)
Fixpoint stmt_always_returns (s : stmt) : bool :=
  match s with
  | Return => true
  | Block l => block_always_returns l
  | IfElse _ t e => stmt_always_returns t && stmt_always_returns e
  | Match _ cs => cases_always_return cs false
  | _ => false
  end
with block_always_returns (l : items) : bool :=
  match l with
  | Nil => false
  | Then s l => if stmt_always_returns s then true else block_always_returns l
  end
with cases_always_return (cs : cases) (has_default : bool) : bool :=
  match cs with
  | CNil => has_default
  | CCons p _ body cs =>
    if stmt_always_returns body then cases_always_return cs (match p with None => true | Some _ => has_default end) else false
  end.
(** typecheck.c:936-960 in check_function: a function whose declared type is not void and
    that is not main *)
Definition accepted (body : items) : bool := block_always_returns body.
