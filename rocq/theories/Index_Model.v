(** Indexing: how [a[i]] is compiled for arrays, slices and pointers, and what the C code does.
    Models src/codegen/codegen.c:1004-1131 (NODE_EXPR_INDEX), src/codegen/codegen.c:885-895 (array passed
    for a slice parameter), src/codegen/codegen_decl.c:1209-1240 (_z_check_bounds, the Slice
    structs), src/parser/parser_expr.c:4137-4255 (indexing in an expression, the compile-time warning).
    Simplifications: the scalars are integers, slices and pointers; all cells of an object have one unit
    of size.  Objects live for ever, so a slice of a dead local is not seen.  Integer operators
    are an oracle.  Structs with an index or get method are calls, see Oper.  [long] has 64 bits. *)
From Verif Require Import Common.
Local Open Scope Z_scope.

(** Types: an integer, a fixed array, a slice, a pointer (ast.c:82-95; a slice is the array of size 0) *)
Inductive ty := TInt | TArr (n : nat) (t : ty) | TSlice (t : ty) | TPtr (t : ty).
Fixpoint size (t : ty) : nat := match t with TArr n t => n * size t | _ => 1 end.

(** Source expressions: [Op] is any binary integer operator. *)
Inductive exp := Lit (z : Z) | Var (x : nat) | Idx (a i : exp) | Op (k : nat) (a b : exp).
(** C expressions: [CSub] is e[i], [CChk] is _z_check_bounds(i, n), [CData] and [CLen] the fields of a slice. *)
Inductive cexp := CLit (z : Z) | CVar (x : nat) | CSub (a i : cexp) | CChk (i n : cexp)
  | CData (a : cexp) | CLen (a : cexp) | COp (k : nat) (a b : cexp).

(** parser_expr.c:4225-4252: the type of an index expression is the element type. *)
Fixpoint typ (g : nat -> ty) (e : exp) : ty :=
  match e with
  | Lit _ => TInt
  | Var x => g x
  | Idx a _ => match typ g a with TArr _ t | TSlice t | TPtr t => t | TInt => TInt end
  | Op _ _ _ => TInt
  end.
Definition is_var (e : exp) : bool := match e with Var _ => true | _ => false end.

(** codegen.c:1004-1131 *)
Fixpoint emit (g : nat -> ty) (e : exp) : cexp :=
  match e with
  | Lit z => CLit z
  | Var x => CVar x
  | Op k a b => COp k (emit g a) (emit g b)
  | Idx a i =>
    match typ g a with
    | TSlice _ =>
      if is_var a then CSub (CData (emit g a)) (CChk (emit g i) (CLen (emit g a)))
      else CSub (CData (emit g a)) (emit g i)
    | TArr n _ => CSub (emit g a) (if (0 <? n)%nat then CChk (emit g i) (CLit (Z.of_nat n)) else emit g i)
    | _ => CSub (emit g a) (emit g i)
    end
  end.

(** Memory: each object is a row of cells.  A location is an object and a cell of it. *)
Definition loc := (nat * Z)%type.
Inductive cell := VInt (z : Z) | VSlice (p : loc) (len : Z) | VPtr (p : loc).
Definition mem := list (list cell).
Definition load (m : mem) (p : loc) : res cell :=
  if snd p <? 0 then UB else
  match nth_error m (fst p) with
  | Some o => match nth_error o (Z.to_nat (snd p)) with Some c => Ok c | None => UB end
  | None => UB
  end.
Definition store (m : mem) (p : loc) (c : cell) : res mem :=
  if snd p <? 0 then UB else
  match nth_error m (fst p) with
  | Some o => if (Z.to_nat (snd p) <? length o)%nat then Ok (upd m (fst p) (upd o (Z.to_nat (snd p)) c)) else UB
  | None => UB
  end.
(** [n] cells from [p] on lie inside one object *)
Definition inside (m : mem) (p : loc) (n : nat) : bool :=
  match nth_error m (fst p) with
  | Some o => (0 <=? snd p) && (snd p + Z.of_nat n <=? Z.of_nat (length o))
  | None => false
  end.

(** What an expression stands for: an integer, a place of a type, an address of elements of a type *)
Inductive cres := RInt (z : Z) | RLoc (p : loc) (t : ty) | RPtr (p : loc) (t : ty).

(** conversion to [long] *)
Definition to_long (z : Z) : Z := (z + 2 ^ 63) mod 2 ^ 64 - 2 ^ 63.

Section Run.
  Variable op : nat -> Z -> Z -> Z.
  Variable g : nat -> ty.

  (** the integer a C expression yields *)
  Definition as_int (m : mem) (r : cres) : res Z :=
    match r with
    | RInt z => Ok z
    | RLoc p TInt => do c <- load m p; match c with VInt z => Ok z | _ => UB end
    | _ => UB
    end.
  (** C: element [z] of what [r] is.  Outside the array, or outside the object behind a pointer,
      it is undefined. *)
  Definition element (m : mem) (r : cres) (z : Z) : res cres :=
    match r with
    | RLoc p (TArr n t) =>
      if (0 <=? z) && (z <? Z.of_nat n) then Ok (RLoc (fst p, snd p + z * Z.of_nat (size t)) t) else UB
    | RLoc p (TPtr t) =>
      do c <- load m p;
      match c with
      | VPtr q =>
        let q := (fst q, snd q + z * Z.of_nat (size t)) in
        if inside m q (size t) then Ok (RLoc q t) else UB
      | _ => UB
      end
    | RPtr q t =>
      let q := (fst q, snd q + z * Z.of_nat (size t)) in
      if inside m q (size t) then Ok (RLoc q t) else UB
    | _ => UB
    end.
  Definition slice_of (m : mem) (r : cres) : res (loc * Z * ty) :=
    match r with
    | RLoc p (TSlice t) => do c <- load m p; match c with VSlice q n => Ok (q, n, t) | _ => UB end
    | _ => UB
    end.

  (** codegen_decl.c:1209-1216: stops the program unless 0 <= index < limit. *)
  Definition check_bounds (z n : Z) : res Z :=
    let z := to_long z in let n := to_long n in
    if (z <? 0) || (n <=? z) then Panic else Ok z.

  Fixpoint cev (m : mem) (e : cexp) : res cres :=
    match e with
    | CLit z => Ok (RInt z)
    | CVar x => Ok (RLoc (x, 0) (g x))
    | COp k a b => do x <- cev m a; do x <- as_int m x; do y <- cev m b; do y <- as_int m y; Ok (RInt (op k x y))
    | CChk i n => do z <- cev m i; do z <- as_int m z; do n <- cev m n; do n <- as_int m n;
                  do z <- check_bounds z n; Ok (RInt z)
    | CData a => do r <- cev m a; do '(q, _, t) <- slice_of m r; Ok (RPtr q t)
    | CLen a => do r <- cev m a; do '(_, n, _) <- slice_of m r; Ok (RInt n)
    | CSub a i => do r <- cev m a; do z <- cev m i; do z <- as_int m z; element m r z
    end.

  (** Statements: [Set_ a b] is [a = b;] for scalars; [View x a] binds the slice parameter [x] of a function
      called with the fixed array [a] (codegen.c:885-895: (Slice_T){.data = a, .len = N}). *)
  Inductive stmt := Set_ (a b : exp) | View (x : nat) (a : exp).
  Definition rvalue (m : mem) (r : cres) : res cell :=
    match r with
    | RInt z => Ok (VInt z)
    | RLoc p (TArr _ _) => UB
    | RLoc p _ => load m p
    | RPtr p _ => Ok (VPtr p)
    end.
  Definition exec (m : mem) (s : stmt) : res mem :=
    match s with
    | Set_ a b =>
      do r <- cev m (emit g a); do v <- cev m (emit g b); do c <- rvalue m v;
      match r with RLoc p _ => store m p c | _ => UB end
    | View x a =>
      do r <- cev m (emit g a);
      match r with
      | RLoc p (TArr n t) => store m (x, 0) (VSlice p (Z.of_nat n))
      | _ => UB
      end
    end.
  Fixpoint run (m : mem) (l : list stmt) : res mem :=
    match l with [] => Ok m | s :: l => do m <- exec m s; run m l end.
End Run.

(** parser_expr.c:4149-4160: a literal index of a fixed array is compared as an [int]. *)
Definition to_int (z : Z) : Z := (z + 2 ^ 31) mod 2 ^ 32 - 2 ^ 31.
Definition warns (g : nat -> ty) (a i : exp) : bool :=
  match typ g a, i with
  | TArr n _, Lit z => (0 <? n)%nat && ((to_int z <? 0) || (Z.of_nat n <=? to_int z))
  | _, _ => false
  end.
