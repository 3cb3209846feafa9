(** Model of the symbol table, src/parser/parser_utils.c:436-605.

    A scope is the list of its symbols, newest first; the current scope is the head of a
    list that continues with its parents ([[]]: current_scope is NULL).  A symbol is its
    name and the rest of its record, of any type [A].  [warned] counts warn_shadowing. *)
From Verif Require Import Common.
Local Open Scope nat_scope.

Section Scope.
Context {A : Type}.
Definition scope := list (bytes * A).
Record ctx := Ctx { current : list scope; all_symbols : scope; warned : list bytes }.
Definition init : ctx := Ctx [] [] [].

(** parser_utils.c:436-442 *)
Definition enter_scope (c : ctx) : ctx := Ctx ([] :: current c) (all_symbols c) (warned c).

(** parser_utils.c:444-463 *)
Definition exit_scope (c : ctx) : ctx :=
  match current c with
  | [] => c
  | _ :: p => Ctx p (all_symbols c) (warned c)
  end.

(** the loops over the symbols of a scope, e.g. parser_utils.c:570-579 *)
Fixpoint find_in (s : scope) (n : bytes) : option A :=
  match s with
  | [] => None
  | (m, a) :: r => if beq_bytes m n then Some a else find_in r n
  end.
(** parser_utils.c:562-583 (find_symbol_type_info, find_symbol_type: 518-560, alike) *)
Fixpoint find_chain (l : list scope) (n : bytes) : option A :=
  match l with
  | [] => None
  | s :: p => match find_in s n with Some a => Some a | None => find_chain p n end
  end.
Definition find_symbol_entry (c : ctx) (n : bytes) : option A := find_chain (current c) n.
(** parser_utils.c:586-600 *)
Definition find_symbol_in_all (c : ctx) (n : bytes) : option A := find_in (all_symbols c) n.

(** parser_utils.c:478-498: does a parent declare the name? *)
Definition shadows (parents : list scope) (n : bytes) : bool :=
  negb (match n with 95%N :: _ => true | _ => false end) && negb (beq_bytes n (bs "it")) && negb (beq_bytes n (bs "self"))
  && match find_chain parents n with Some _ => true | None => false end.

(** parser_utils.c:470-516 *)
Definition add_symbol (c : ctx) (n : bytes) (a : A) : ctx :=
  let c1 := match current c with [] => enter_scope c | _ => c end in
  match current c1 with
  | [] => c1
  | s :: p => Ctx (((n, a) :: s) :: p) ((n, a) :: all_symbols c1)
                  (if shadows p n then n :: warned c1 else warned c1)
  end.

Inductive op := Enter | Exit | Add (n : bytes) (a : A).
Definition step (c : ctx) (o : op) : ctx :=
  match o with
  | Enter => enter_scope c
  | Exit => exit_scope c
  | Add n a => add_symbol c n a
  end.
Definition run (c : ctx) (h : list op) : ctx := fold_left step h c.
End Scope.
Arguments op : clear implicits.
Arguments ctx : clear implicits.
