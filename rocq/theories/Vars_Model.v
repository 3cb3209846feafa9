(** Model of variable declarations in functions (codegen_stmt.c:963-1140, is_int_type 152-191),
    of static and autofree variables (parser_stmt.c:2336-2352, 2491-2502, codegen_stmt.c:964-971,
    codegen_decl.c:152-155) and of global variables (codegen_decl.c:746-793).

    [Panic]: the C compiler rejects the text.  [UB]: a variable without a value is read, or
    memory is freed that is not a live block.
    Simplification: floats and bools are numbers; the drop glue itself is not run here (C64). *)
From Verif Require Import Common.
Local Open Scope Z_scope.

(** The kinds a declared type may have (ast.h:31-78).  [TNum]: one of the kinds of is_int_type.
    A name of a struct, enum, union or trait is a TYPE_STRUCT (parser_type.c:517, 553); [TOpaque]:
    an alias declared opaque (parser_type.c:41-52). *)
Inductive ty :=
  | TNum | TFloat | TBool | TStruct (fields : list ty) | TArr (t : ty) (n : nat) | TSlice
  | TPtr | TVoidPtr | TString | TFun | TVector (n : nat) | TOpaque (t : ty).
Inductive val := VNum (z : Z) | VNull | VPtr (b : nat) | VAgg (l : list val) | VUninit.

(** what C puts in an object of static storage, or in the members an initialiser leaves out *)
Fixpoint zero (t : ty) : val :=
  match t with
  | TNum | TFloat | TBool => VNum 0
  | TStruct fs => VAgg (map zero fs)
  | TArr t n => VAgg (repeat (zero t) n)
  | TSlice => VAgg [VNull; VNum 0; VNum 0]
  | TPtr | TVoidPtr | TString | TFun => VNull
  | TVector n => VAgg (repeat (VNum 0) n)
  | TOpaque t => zero t
  end.

(** codegen_stmt.c:980-1046: a local variable without a value.  The inner [option]: no
    initialiser is written.  void* goes the way of inferred types (984, 1115-1140), where the
    missing expression leaves nothing behind the equals sign. *)
Definition default (t : ty) : res (option val) :=
  match t with
  | TVoidPtr => Panic
  | TArr _ _ | TSlice | TStruct _ => Ok (Some (zero t))     (* = {0} *)
  | TNum | TFloat | TBool => Ok (Some (VNum 0))             (* = 0, = 0.0f, = 0.0, = false *)
  | _ => Ok None
  end.
(** C: a static object without an initialiser is zero; any other has no value *)
Definition local_value (static : bool) (t : ty) (init : option val) : res val :=
  match init with
  | Some v => Ok v
  | None => do d <- default t; Ok (match d with Some v => v | None => if static then zero t else VUninit end)
  end.
(** codegen_decl.c:783-787: no initialiser at all; static storage *)
Definition global_value (t : ty) (init : option val) : val := match init with Some v => v | None => zero t end.
Definition read (v : val) : res val := match v with VUninit => UB | v => Ok v end.

(** A declaration, and the C declarations made of it: the specifiers are written once, in front
    of the drop flag if there is one (964-1000). *)
Record decl := D { dname : bytes; dstatic : bool; dauto : bool; ddrop : bool; dty : ty; dinit : option val }.
Record cdecl := CD { cname : bytes; cstatic : bool; cauto : bool; cval : val }.
Definition flag_name (n : bytes) : bytes := bs "__z_drop_flag_" ++ n.
Definition emit (d : decl) : res (list cdecl) :=
  do v <- local_value (dstatic d && negb (ddrop d)) (dty d) (dinit d);
  Ok (if ddrop d then [CD (flag_name (dname d)) (dstatic d) (dauto d) (VNum 1); CD (dname d) false false v]
      else [CD (dname d) (dstatic d) (dauto d) v]).
Fixpoint emit_all (l : list decl) : res (list cdecl) :=
  match l with [] => Ok [] | d :: l => do a <- emit d; do b <- emit_all l; Ok (a ++ b) end.

(** Variables by name, the newest first *)
Definition env := list (bytes * val).
Fixpoint get (x : bytes) (g : env) : option val :=
  match g with [] => None | (y, v) :: g => if beq_bytes x y then Some v else get x g end.
Fixpoint put (x : bytes) (v : val) (g : env) : env :=
  match g with [] => [] | (y, w) :: g => if beq_bytes x y then (y, v) :: g else (y, w) :: put x v g end.

(** C: entering the scope.  Static objects live on from call to call in [st]. *)
Fixpoint enter (l : list cdecl) (st : env) : env * env :=
  match l with
  | [] => (st, [])
  | c :: l =>
    let st := if cstatic c then match get (cname c) st with Some _ => st | None => (cname c, cval c) :: st end else st in
    let v := if cstatic c then match get (cname c) st with Some v => v | None => VUninit end else cval c in
    let '(st', g) := enter l st in (st', (cname c, v) :: g)
  end.
(** C: leaving it: static objects keep what the body left in them *)
Fixpoint leave (l : list cdecl) (g : env) (st : env) : env :=
  match l with
  | [] => st
  | c :: l => leave l g (if cstatic c then match get (cname c) g with Some v => put (cname c) v st | None => st end else st)
  end.

(** The heap: which blocks are live *)
Definition heap := list bool.
Definition free_ (h : heap) (v : val) : res heap :=
  match v with
  | VNull => Ok h
  | VPtr b => match nth_error h b with Some true => Ok (upd h b false) | _ => UB end
  | _ => UB
  end.
(** __attribute__((cleanup)): every autofree variable, the last one first, in whatever way the
    scope is left; _z_autofree_impl reads a pointer from the variable (codegen_decl.c:152) *)
Fixpoint cleanup (l : list cdecl) (g : env) (h : heap) : res heap :=
  match l with
  | [] => Ok h
  | c :: l => do h <- cleanup l g h;
    if cauto c && negb (cstatic c) then match get (cname c) g with Some v => free_ h v | None => UB end else Ok h
  end.

(** A call of a function with these declarations and any body: what the body does with the
    variables and the heap, and how it leaves.  The last two: the variables as the body finds
    and as it leaves them. *)
Inductive exit := Fall | Return (v : val) | Break | Continue.
Definition body := env -> heap -> env * heap * exit.
Definition call (l : list decl) (b : body) (st : env) (h : heap) : res (env * heap * exit * (env * env)) :=
  do cs <- emit_all l;
  let '(st, g) := enter cs st in
  let '(g', h, x) := b g h in
  do h <- cleanup cs g' h;
  Ok (leave cs g' st, h, x, (g, g')).
Fixpoint calls (n : nat) (l : list decl) (b : body) (st : env) (h : heap) : res (env * heap * list (env * env)) :=
  match n with
  | O => Ok (st, h, [])
  | S n => do '(st, h, _, g) <- call l b st h; do '(st, h, gs) <- calls n l b st h; Ok (st, h, g :: gs)
  end.
