(** Model of slice expressions a[s..e] (parser_expr.c:5676-5757 and codegen.c:1130-1204), of the
    index of a slice (codegen.c:1036-1045, codegen_decl.c:1206-1217), of a fixed array passed for
    a slice parameter (codegen.c:880-895) and of the return statement (codegen_stmt.c:1557-1685).

    Memory and pointers are those of Slice_Model.  The generated C is a GNU block that declares
    _arr, _start and _len in turn; in C a name is in scope inside its own initialiser, where it
    has no value yet.  [UB]: reading such a name, a pointer moved out of its block, arithmetic
    that overflows.  [Panic]: the program stops, or the C compiler rejects the text.
    Simplification: the bounds are expressions of variables, literals, + and - of type long. *)
From Verif Require Import Common Slice_Model Ctype_Model.
Local Open Scope Z_scope.

Section Cut.
Variable T : Type.

Inductive val := VInt (z : Z) | VPtr (p : ptr) | VSlice (p : ptr) (len : Z) | VUninit.
Definition env := list (bytes * val).
Fixpoint lookup (x : bytes) (g : env) : option val :=
  match g with [] => None | (y, v) :: g => if beq_bytes x y then Some v else lookup x g end.

Inductive exp := Num (z : Z) | Var (x : bytes) | Add (a b : exp) | Sub (a b : exp).
Definition long (z : Z) : res Z := if (- 2 ^ 63 <=? z) && (z <? 2 ^ 63) then Ok z else UB.
Fixpoint eval (g : env) (e : exp) : res Z :=
  match e with
  | Num z => Ok z
  | Var x => match lookup x g with Some (VInt z) => Ok z | Some VUninit => UB | _ => Panic end
  | Add a b => do x <- eval g a; do y <- eval g b; long (x + y)
  | Sub a b => do x <- eval g a; do y <- eval g b; long (x - y)
  end.

(** the initialiser of an int *)
Definition to_int (z : Z) : Z := (z + 2 ^ 31) mod 2 ^ 32 - 2 ^ 31.
(** p + k: stays in its block or one past its end *)
Definition ptr_add (m : mem T) (p : ptr) (k : Z) : res ptr :=
  match p with
  | None => if k =? 0 then Ok p else UB
  | Some (b, i) => match nth_error m b with
                   | Some (Live _ l) => if (0 <=? i + k) && (i + k <=? Z.of_nat (length l)) then Ok (shift p k) else UB
                   | _ => UB end
  end.

Definition n_arr := bs "_arr".
Definition n_start := bs "_start".
Definition n_len := bs "_len".

(** codegen.c:1153-1201: the declarations after the one of _arr, whose value is [v] *)
Definition block (m : mem T) (g : env) (v : val) (s e : option exp) : res val :=
  let g1 := (n_arr, v) :: g in
  do i <- match s with Some s => eval ((n_start, VUninit) :: g1) s | None => Ok 0 end;
  let i := to_int i in
  let g2 := (n_start, VInt i) :: g1 in
  do l <- match e with
          | Some e => do x <- eval ((n_len, VUninit) :: g2) e; long (x - i)
          | None => match v with VSlice _ n => Ok (n - i) | _ => Ok 0 end
          end;
  let l := to_int l in
  match v with
  | VSlice p _ => do q <- ptr_add m p i; Ok (VSlice q l)
  | VPtr p => do q <- ptr_add m p i; Ok (VSlice q l)
  | VUninit => UB
  | VInt _ => Panic
  end.
(** the sliced expression: a variable, or a slice expression itself *)
Inductive src := SVar (x : bytes) | SCut (a : src) (s e : option exp).
Fixpoint run (m : mem T) (g : env) (a : src) : res val :=
  match a with
  | SVar x => match lookup x g with Some VUninit => UB | Some v => Ok v | None => Panic end
  | SCut a s e => do v <- run m ((n_arr, VUninit) :: g) a; block m g v s e
  end.

(** codegen.c:1036-1045 with codegen_decl.c:1215: x.data[_z_check_bounds(i, x.len)] *)
Definition index (m : mem T) (v : val) (i : Z) : res T :=
  match v with
  | VSlice p len => if (i <? 0) || (len <=? i) then Panic else load T m (shift p i)
  | _ => Panic
  end.
Definition assign (m : mem T) (v : val) (i : Z) (x : T) : res (mem T) :=
  match v with
  | VSlice p len => if (i <? 0) || (len <=? i) then Panic else store T m (shift p i) x
  | _ => Panic
  end.

(** codegen.c:885-893: an array of [n] elements for a parameter that is a slice *)
Definition coerce (p : ptr) (n : Z) : val := VSlice p n.

(** The names of the types.  [zen_name]: type_to_string (ast.c:249-330), under which
    register_slice declares the struct (5743-5750, codegen_decl.c:1231-1237); the C name
    (Ctype_Model.base_name) is the one the expression uses (codegen.c:1146-1150). *)
Definition zen_name (b : base) : bytes :=
  match b with
  | BCInt => bs "c_int" | BCUint => bs "c_uint" | BCLong => bs "c_long" | BCUlong => bs "c_ulong"
  | BCLongLong => bs "c_long_long" | BCUlongLong => bs "c_ulong_long"
  | BCShort => bs "c_short" | BCUshort => bs "c_ushort" | BCChar => bs "c_char" | BCUchar => bs "c_uchar"
  | BInt => bs "int"
  | BStruct _ n => n
  | b => base_name b
  end.
Inductive kind := KArray (n : Z) | KPointer | KSlice.
(** codegen_utils.c:754-780: the type in front of _arr is the name of the variable's type, with
    the size of an array behind it *)
Definition arr_type (b : base) (k : kind) : bytes :=
  match k with
  | KArray n => zen_name b ++ bs "[" ++ dec n ++ bs "]"
  | KPointer => zen_name b ++ bs "*"
  | KSlice => bs "Slice_" ++ zen_name b
  end.
(** what the C compiler accepts: no brackets between a type and the name declared; an element
    type name that forms one identifier; a slice struct of that name declared.  [regs]: the
    element types of the slices declared for other parts of the program. *)
Definition compiles (regs : list bytes) (b : base) (k : kind) : bool :=
  negb (existsb (N.eqb (ch "[")) (arr_type b k))
  && negb (existsb (N.eqb 32) (base_name b))
  && existsb (beq_bytes (base_name b)) (zen_name b :: regs).

(** codegen_stmt.c:1562-1607: return [e1, ..., en] in a function whose type is a slice.  The
    elements are state transformers, assigned one after the other. *)
Variable St : Type.
Fixpoint elements (l : list (St -> T * St)) (s : St) : list T * St :=
  match l with [] => ([], s) | e :: l => let '(v, s) := e s in let '(r, s) := elements l s in (v :: r, s) end.
Definition return_literal (m : mem T) (l : list (St -> T * St)) (s : St) (malloc_ok : bool) : res (mem T * val * St) :=
  match malloc_ok, l with
  | false, _ :: _ => UB
  | _, _ =>
    let '(vs, s) := elements l s in
    Ok (m ++ [Live T vs], VSlice (Some (length m, 0)) (Z.of_nat (length l)), s)
  end.

(** codegen_stmt.c:1557-1685: what a return statement does, in order.  [slice_fn]: the function
    returns a slice; [lit]: the value is an array literal; [defers]: the open ones, the last one
    written first in the code it emits (1642, 1666, 1676). *)
Inductive event := Value | Run (d : nat) | Leave.
Definition return_ (slice_fn lit : bool) (value : bool) (defers : list nat) : list event :=
  if value && lit && slice_fn then [Value; Leave]
  else (if value then [Value] else []) ++ map Run (rev defers) ++ [Leave].
End Cut.
