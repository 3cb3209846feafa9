(** What the C compiler demands of the same program: the constraints of ISO C 6.5 and 6.8 on a fragment without void*, arrays,
    qualifiers, null constants and type names; written without the checker's functions. *)
From Verif Require Import Common Types_Model Check_Model.
Local Open Scope nat_scope.

(** C types: the integer types (0 is char), the floating types, pointers, structs, void *)
Inductive ct := CInt (k : nat) | CFloat (k : nat) | CPtr (c : ct) | CStruct (n : bytes) | CVoid.
(** The C type of a type of the fragment *)
Fixpoint cof (t : ty) : option ct :=
  match t with
  | TChar => Some (CInt 0) | TIntK k => Some (CInt (S k)) | TFloatK k => Some (CFloat k)
  | TString => Some (CPtr (CInt 0))
  | TPlain 0 => Some CVoid
  | TStruct n =>
    if existsb (beq_bytes n) (int_names ++ [bs "char"; bs "str"; bs "string"]) then None else Some (CStruct n)
  | TPointer u => match cof u with Some CVoid | None => None | Some c => Some (CPtr c) end
  | _ => None
  end.
Definition is_cint (c : ct) : bool := match c with CInt _ => true | _ => false end.
Definition is_cfloat (c : ct) : bool := match c with CFloat _ => true | _ => false end.
Definition arithmetic (c : ct) : bool := is_cint c || is_cfloat c.
Definition scalar (c : ct) : bool := match c with CInt _ | CFloat _ | CPtr _ => true | _ => false end.
Definition lvalue (e : exp) : bool := match e with Var _ | Un Deref _ | Index _ _ => true | _ => false end.

Record csig := mkcsig { cparams : list ct; crequired : nat; cvarargs : bool; cret : ct }.
(** the variables and functions in scope and the result type of the function *)
Record cenv := mkcenv { cvars : nat -> option ct; cfuns : nat -> option csig; cresult : ct }.

(** Two notions of compatible pointers: the same type (ISO C), or the same up to the sizes of integers and floats
    (compilers that only warn) *)
Definition ct_eq (c d : ct) : {c = d} + {c <> d}. Proof. repeat decide equality. Defined.
Definition exact (c d : ct) : bool := if ct_eq c d then true else false.
Fixpoint lax (c d : ct) : bool :=
  match c, d with
  | CInt _, CInt _ | CFloat _, CFloat _ | CVoid, CVoid => true
  | CPtr c, CPtr d => lax c d
  | CStruct n, CStruct m => beq_bytes n m
  | _, _ => false
  end.

Section C.
Variable compatible : ct -> ct -> bool.
(** 6.5.16.1 *)
Definition assignable (to from : ct) : bool :=
  match to, from with
  | CPtr c, CPtr d => compatible c d
  | CStruct n, CStruct m => beq_bytes n m
  | _, _ => arithmetic to && arithmetic from
  end.
(** the type of an arithmetic result; its size plays no part in the rules *)
Definition both (c d : ct) : ct := if is_cint c && is_cint d then CInt 1 else CFloat 0.
(** 6.5.5 to 6.5.14 *)
Definition bin (o : binop) (c d : ct) : option ct :=
  match o with
  | Mul | Div => if arithmetic c && arithmetic d then Some (both c d) else None
  | Mod | Bit | Shift => if is_cint c && is_cint d then Some (CInt 1) else None
  | Add =>
    match c, d with
    | CPtr _, CInt _ => Some c
    | CInt _, CPtr _ => Some d
    | _, _ => if arithmetic c && arithmetic d then Some (both c d) else None
    end
  | Sub =>
    match c, d with
    | CPtr _, CInt _ => Some c
    | CPtr x, CPtr y => if compatible x y then Some (CInt 1) else None
    | _, _ => if arithmetic c && arithmetic d then Some (both c d) else None
    end
  | Cmp =>
    match c, d with
    | CPtr x, CPtr y => if compatible x y then Some (CInt 1) else None
    | _, _ => if arithmetic c && arithmetic d then Some (CInt 1) else None
    end
  | Logic => if scalar c && scalar d then Some (CInt 1) else None
  | Compound => None               (* left out of the fragment *)
  end.
(** 6.5.3.3, 6.5.3.2 *)
Definition un (o : unop) (c : ct) : option ct :=
  match o, c with
  | Not, _ => if scalar c then Some (CInt 1) else None
  | Neg, _ => if arithmetic c then Some (both c c) else None
  | BNot, CInt _ => Some (CInt 1)
  | Deref, CPtr c => Some c
  | _, _ => None
  end.
(** 6.5.15 *)
Definition branches (c d : ct) : option ct :=
  match c, d with
  | CPtr x, CPtr y => if compatible x y then Some c else None
  | CStruct n, CStruct m => if beq_bytes n m then Some c else None
  | CVoid, CVoid => Some CVoid
  | _, _ => if arithmetic c && arithmetic d then Some (both c d) else None
  end.

(** The type of an expression, if it meets the constraints *)
Fixpoint wt (g : cenv) (e : exp) : option ct :=
  match e with
  | Lit (LInt _) => Some (CInt 1) | Lit (LFloat _) => Some (CFloat 0)
  | Lit LStr => Some (CPtr (CInt 0)) | Lit LChar => Some (CInt 1)
  | Var x => cvars g x
  | Other t => match t with Some t => cof t | None => None end
  | Un o e => match wt g e with Some c => un o c | None => None end
  | Bin o a b => match wt g a, wt g b with Some c, Some d => bin o c d | _, _ => None end
  | Assign a b =>
    match wt g a, wt g b with
    | Some c, Some d => if lvalue a && assignable c d then Some c else None
    | _, _ => None
    end
  | Call f l =>                                                            (* 6.5.2.2; defaults fill in for missing arguments *)
    match cfuns g f with
    | None => None
    | Some s =>
      if (crequired s <=? arg_count l) && ((arg_count l <=? length (cparams s)) || cvarargs s) && wt_args g (cparams s) l
      then Some (cret s) else None
    end
  | Index a i => match wt g a, wt g i with Some (CPtr c), Some (CInt _) => Some c | _, _ => None end
  | Tern c a b =>
    match wt g c, wt g a, wt g b with
    | Some x, Some c, Some d => if scalar x then branches c d else None
    | _, _, _ => None
    end
  end
with wt_args (g : cenv) (ps : list ct) (l : args) : bool :=
  match l with
  | ANil => true
  | ACons e l =>
    match wt g e with
    | Some d => match hd_error ps with Some c => assignable c d | None => negb (exact d CVoid) end && wt_args g (tl ps) l
    | None => false
    end
  end.

Definition cdeclare (g : cenv) (x : nat) (c : ct) : cenv :=
  mkcenv (fun y => if y =? x then Some c else cvars g y) (cfuns g) (cresult g).
Definition cond_ok (g : cenv) (e : exp) : bool := match wt g e with Some c => scalar c | None => false end.
(** 6.7.9, 6.8.4, 6.8.5, 6.8.6.4; without a type, a variable has that of its initializer *)
Fixpoint wt_stmt (g : cenv) (s : stmt) : option cenv :=
  match s with
  | SExp e => match wt g e with Some _ => Some g | None => None end
  | SLet x t e =>
    match wt g e, match t with Some t => cof t | None => wt g e end with
    | Some d, Some CVoid => None
    | Some d, Some c => if assignable c d then Some (cdeclare g x c) else None
    | _, _ => None
    end
  | SIf c a b => if cond_ok g c && wt_block g a && wt_block g b then Some g else None
  | SWhile c b => if cond_ok g c && wt_block g b then Some g else None
  | SReturn None => match cresult g with CVoid => Some g | _ => None end
  | SReturn (Some e) => match wt g e with Some d => if assignable (cresult g) d then Some g else None | None => None end
  | SBreak => Some g
  | SBlock b => if wt_block g b then Some g else None
  end
with wt_block (g : cenv) (b : block) : bool :=
  match b with
  | BNil => true
  | BCons s b => match wt_stmt g s with Some g' => wt_block g' b | None => false end
  end.
End C.

(** The scope of the checker and that of C are the same, and inside the fragment *)
Definition value_type (t : ty) (c : ct) : Prop := cof t = Some c /\ c <> CVoid.
Definition same_scope (g : env) (h : cenv) : Prop :=
  (forall x, match vars g x, cvars h x with Some t, Some c => value_type t c | None, None => True | _, _ => False end)
  /\ (forall f, match funs g f, cfuns h f with
                | Some s, Some s' => Forall2 value_type (params s) (cparams s') /\ required s = crequired s'
                                     /\ varargs s = cvarargs s' /\ cof (ret s) = Some (cret s')
                | None, None => True
                | _, _ => False
                end)
  /\ (returns g = true <-> cresult h <> CVoid).

(** * What the checker does not look at.  [seen]: the program has none of it. *)
Section Seen.
Variable g : cenv.
Let ty e := wt lax g e.
Definition is_scalar (e : exp) : Prop := forall c, ty e = Some c -> scalar c = true.
Fixpoint seen (e : exp) : Prop :=
  match e with
  | Lit _ => True
  | Var x => cvars g x <> None                                                       (* undeclared variables *)
  | Other t => exists u c, t = Some u /\ value_type u c                              (* types outside the fragment *)
  | Un Not e => seen e /\ is_scalar e                                                (* !struct *)
  | Un _ e => seen e
  | Bin o a b => seen a /\ seen b /\
    match o with
    | Mod => (forall c, ty a = Some c -> is_cfloat c = false) /\ (forall c, ty b = Some c -> is_cfloat c = false)
    | Sub => forall c d, ty a = Some (CPtr c) -> ty b = Some (CPtr d) -> lax c d = true
    | Cmp => is_scalar a
    | Logic => is_scalar a /\ is_scalar b
    | Compound => False
    | _ => True
    end
  | Assign a b => seen a /\ seen b /\ lvalue a = true                                (* 1 = 2 *)
  | Call f l => seen_args (match cfuns g f with Some s => length (cparams s) | None => 0 end) l
  | Index a i => seen a /\ seen i /\ forall c, ty a = Some c -> exists d, c = CPtr d (* 1[2] *)
  | Tern c a b => seen c /\ seen a /\ seen b
  end
with seen_args (n : nat) (l : args) : Prop :=
  match l with
  | ANil => True
  | ACons e l => seen e /\ (n = 0 -> ty e <> Some CVoid) /\ seen_args (pred n) l
  end.
End Seen.
Definition next (g : cenv) (s : stmt) : cenv := match wt_stmt lax g s with Some g' => g' | None => g end.
Fixpoint seen_stmt (g : cenv) (s : stmt) : Prop :=
  match s with
  | SExp e => seen g e
  | SLet _ t e => seen g e /\
    match t with Some t => exists c, value_type t c | None => wt lax g e <> Some CVoid end
  | SIf c a b => seen g c /\ seen_block g a /\ seen_block g b
  | SWhile c b => seen g c /\ seen_block g b
  | SReturn (Some e) => seen g e /\ (forall d, wt lax g e = Some d -> assignable lax (cresult g) d = true)
  | SReturn None | SBreak => True
  | SBlock b => seen_block g b
  end
with seen_block (g : cenv) (b : block) : Prop :=
  match b with BNil => True | BCons s b => seen_stmt g s /\ seen_block (next g s) b end.

(** * What the checker refuses although C allows it.  [clean]: the program has none of it. *)
(** integer and floating point in one place *)
Definition mixed (c d : option ct) : bool :=
  match c, d with Some c, Some d => (is_cint c && is_cfloat d) || (is_cfloat c && is_cint d) | _, _ => false end.
Section Clean.
Variable g : cenv.
Let ty e := wt exact g e.
Fixpoint clean (e : exp) : Prop :=
  match e with
  | Lit _ | Var _ => True
  | Other t => exists u c, t = Some u /\ value_type u c
  | Un _ e => clean e
  | Bin o a b => clean a /\ clean b /\
    match o, b with
    | (Div | Mod), Lit (LInt n) => n <> 0%Z
    | (Div | Mod), Lit (LFloat z) => z = false
    | Shift, Lit (LInt n) => (n < 32)%Z
    | _, _ => True
    end
  | Assign a b => clean a /\ clean b /\ mixed (ty a) (ty b) = false
  | Call f l => clean_args (match cfuns g f with Some s => cparams s | None => [] end) l
  | Index a i => clean a /\ clean i
  | Tern c a b => clean c /\ clean a /\ clean b /\ mixed (ty a) (ty b) = false
      /\ (forall x, ty c = Some x -> is_cfloat x = false /\ x <> CPtr (CInt 0))
  end
with clean_args (ps : list ct) (l : args) : Prop :=
  match l with
  | ANil => True
  | ACons e l => clean e /\ mixed (hd_error ps) (ty e) = false /\ clean_args (tl ps) l
  end.
End Clean.
Definition clean_cond (g : cenv) (e : exp) : Prop := clean g e /\ forall x, wt exact g e = Some x -> is_cfloat x = false.
Definition next' (g : cenv) (s : stmt) : cenv := match wt_stmt exact g s with Some g' => g' | None => g end.
Fixpoint clean_stmt (g : cenv) (s : stmt) : Prop :=
  match s with
  | SExp e => clean g e
  | SLet _ t e => clean g e /\
    match t with Some t => mixed (cof t) (wt exact g e) = false | None => True end
  | SIf c a b => clean_cond g c /\ clean_block g a /\ clean_block g b
  | SWhile c b => clean_cond g c /\ clean_block g b
  | SReturn (Some e) => clean g e
  | SReturn None | SBreak => True
  | SBlock b => clean_block g b
  end
with clean_block (g : cenv) (b : block) : Prop :=
  match b with
  | BNil => True
  | BCons s b => clean_stmt g s /\ clean_block (next' g s) b /\ (ends s = true -> b = BNil)   (* dead code *)
  end.
