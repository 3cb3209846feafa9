(** Model of if as an expression: parse (src/parser/parser_expr.c:1720-1763, src/parser/parser_stmt.c:1106-1155 for
    else if), the C code (src/codegen/codegen.c:1219-1300) with the stack of deferred statements (defer_stack,
    src/codegen/codegen_stmt.c: NODE_DEFER; run at the end of the enclosing block, 951-963), and what that code does.

    Simplifications: other expressions and statements are atoms with an arbitrary meaning and an integer
    type; a branch is a list of statements and a last expression; the stack of deferred statements has no limit
    here (see Defer); no return, break or continue inside branches; no user variable is called _ifval. *)
From Verif Require Import Common Range_Model.
Local Open Scope Z_scope.

(** if c { then } else { else }; [Defer d] defers the atom [d] *)
Inductive exp := Atom (a : nat) | If (c : exp) (t : block) (e : option_block)
with stmt := Do (e : exp) | Defer (d : nat)
with block := Last (e : exp) | Then (s : stmt) (b : block)
with option_block := NoElse | Else (b : block).

(** C: an atom, or ({ __typeof__(ty) _ifval; if (c) { t } else { e } _ifval; }); in the branches
    [CRun] is an expression statement and [CSet] is _ifval = e; *)
Inductive cexp := CAtom (a : nat) | CIf (ty c : cexp) (t e : cstmts)
with cstmts := CNil | CRun (e : cexp) (l : cstmts) | CSet (e : cexp) (l : cstmts).

(** codegen.c:1219-1300: the code and the atoms left on the stack of deferred statements, last first.  The last
    expression of the first branch is generated twice, for the type and for the value. *)
Fixpoint emit (e : exp) (ds : list nat) : cexp * list nat :=
  match e with
  | Atom a => (CAtom a, ds)
  | If c t e =>
    let '(ty, ds) := emit_last t ds in
    let '(c, ds) := emit c ds in
    let '(t, ds) := emit_block t ds in
    let '(e, ds) := match e with Else b => emit_block b ds | NoElse => (CNil, ds) end in
    (CIf ty c t e, ds)
  end
with emit_stmt (s : stmt) (ds : list nat) : (cstmts -> cstmts) * list nat :=
  match s with
  | Do e => let '(c, ds) := emit e ds in (CRun c, ds)
  | Defer d => (fun l => l, d :: ds)
  end
with emit_block (b : block) (ds : list nat) : cstmts * list nat :=
  match b with
  | Last e => let '(c, ds) := emit e ds in (CSet c CNil, ds)
  | Then s b => let '(f, ds) := emit_stmt s ds in let '(l, ds) := emit_block b ds in (f l, ds)
  end
with emit_last (b : block) (ds : list nat) : cexp * list nat :=
  match b with Last e => emit e ds | Then _ b => emit_last b ds end.

Section Run.
  (** the state of the program, the atoms and their types *)
  Variable St : Type.
  Variable atom : nat -> St -> res (Z * St).
  Variable aty : nat -> cty.

  (** the type of a C expression: that of __typeof__ *)
  Fixpoint ctype (e : cexp) : cty := match e with CAtom a => aty a | CIf ty _ _ _ => ctype ty end.
  (** What the C code does; [v] is _ifval, of type [t], and not set at first. *)
  Fixpoint cev (e : cexp) (s : St) : res (Z * St) :=
    match e with
    | CAtom a => atom a s
    | CIf ty c t e =>
      do '(x, s) <- cev c s;
      do '(v, s) <- cblock (ctype ty) (if x =? 0 then e else t) None s;
      match v with Some z => Ok (z, s) | None => UB end
    end
  with cblock (t : cty) (l : cstmts) (v : option Z) (s : St) : res (option Z * St) :=
    match l with
    | CNil => Ok (v, s)
    | CRun e l => do '(_, s) <- cev e s; cblock t l v s
    | CSet e l => do '(x, s) <- cev e s; cblock t l (Some (convert t x)) s
    end.

  (** A function whose body is a list of expression statements: what is deferred runs at the end
      (codegen_stmt.c:783-826). *)
  Fixpoint emit_body (l : list stmt) (ds : list nat) : list cexp * list nat :=
    match l with
    | [] => ([], ds)
    | Do e :: l => let '(c, ds) := emit e ds in let '(r, ds) := emit_body l ds in (c :: r, ds)
    | Defer d :: l => emit_body l (d :: ds)
    end.
  Fixpoint run_all (l : list cexp) (s : St) : res St :=
    match l with [] => Ok s | e :: l => do '(_, s) <- cev e s; run_all l s end.
  Definition run_body (l : list stmt) (s : St) : res St :=
    let '(code, ds) := emit_body l [] in run_all (code ++ map CAtom ds) s.
End Run.

(** The size of the C code in atoms *)
Fixpoint csize (e : cexp) : nat :=
  match e with CAtom _ => 1 | CIf ty c t e => csize ty + csize c + csizes t + csizes e end
with csizes (l : cstmts) : nat :=
  match l with CNil => 0 | CRun e l => csize e + csizes l | CSet e l => csize e + csizes l end.
