(** The meaning of operators and methods on structs: the method of the left operand's type is
    called once; where it takes a pointer it gets the operand's place, or that of a
    temporary; where it takes a value it gets the operand's value. *)
From Verif Require Import Common Oper_Model.
Local Open Scope nat_scope.

Section program.
Variable funcs : list (bytes * sig).
Variable impls : list (bytes * bytes).

(** The struct's own method, else that of the latest trait implemented for it *)
Fixpoint from_traits (l : list (bytes * bytes)) (s m : bytes) : option (bytes * sig) :=
  match l with
  | [] => None
  | (st, tr) :: l =>
    let n := s ++ bs "__" ++ tr ++ bs "_" ++ m in
    match (if beq_bytes st s then find n funcs else None) with Some g => Some (n, g) | None => from_traits l s m end
  end.
Definition method_of (s m : bytes) : option (bytes * sig) :=
  match find (s ++ bs "__" ++ m) funcs with Some g => Some (s ++ bs "__" ++ m, g) | None => from_traits impls s m end.

(** The method that an operator stands for; two pointers are compared as pointers *)
Definition binary_op (op : bytes) (ta tb : ty) : option (bytes * sig) :=
  match operator_method op, struct_of ta with
  | Some m, Some (s, p) => if p && is_equality op && is_pointer tb then None else method_of s m
  | _, _ => None
  end.
Definition unary_op (op : bytes) (ta : ty) : option (bytes * sig) :=
  match unary_method op, struct_of ta with Some m, Some (s, _) => method_of s m | _, _ => None end.
Definition named (m : bytes) (ta : ty) : option (bytes * sig) :=
  match struct_of ta with Some (s, _) => method_of s m | None => None end.

Fixpoint typ (e : src) : ty :=
  match e with
  | SVar _ t => t | SConst _ t _ => t | SCond _ a _ => typ a
  | SUn op a => match unary_op op (typ a) with Some (_, g) => ret g | None => typ a end
  | SBin op a b => match binary_op op (typ a) (typ b) with Some (_, g) => ret g | None => if is_comparison op then TNum else typ a end
  | SMethod m a => match named m (typ a) with Some (_, g) => ret g | None => TNum end
  | SAssign _ _ t _ => t
  end.

Variable fn : bytes -> list val -> st -> res (val * st).
Variable constant : bytes -> Z.
Variable arith : bytes -> val -> val -> res val.
Variable arith1 : bytes -> val -> res val.

(** A number is true unless it is 0, an address is true; the negation is 0 or 1 *)
Definition holds (v : val) : res bool :=
  match v with VNum 0%Z => Ok false | VNum _ | VPtr _ => Ok true | VObj _ => Panic end.
Definition opposite (v : val) : res val :=
  match v with VNum 0%Z => Ok (VNum 1) | VNum _ | VPtr _ => Ok (VNum 0) | VObj _ => Panic end.
(** The place of an operand *)
Definition place (e : src) (value : st -> res (val * st)) (s : st) : res (val * st) :=
  match e with SVar x _ => Ok (VPtr (LVar x), s) | _ => do '(v, s) <- value s; Ok (fresh v s) end.
Definition argument (pointer : bool) (e : src) (value : st -> res (val * st)) (s : st) : res (val * st) :=
  match pointer, is_pointer (typ e) with
  | true, true | false, false => value s
  | true, false => place e value s
  | false, true => do '(v, s) <- value s; match v with VPtr l => Ok (mem s l, s) | _ => Panic end
  end.

Fixpoint meaning (e : src) (s : st) : res (val * st) :=
  match e with
  | SVar x _ => Ok (mem s (LVar x), s)
  | SConst _ t txt => Ok (const_val constant t txt, s)
  | SCond c a b => do '(v, s) <- meaning c s; do b' <- holds v; if b' then meaning a s else meaning b s
  | SUn op a =>
    match unary_op op (typ a) with
    | Some (n, g) => do '(v, s) <- argument (hd false (params g)) a (meaning a) s; call funcs fn n [v] s
    | None => do '(v, s) <- meaning a s; do v <- builtin1 arith1 op v; Ok (v, s)
    end
  | SBin op a b =>
    match binary_op op (typ a) (typ b) with
    | Some (n, g) =>
      do '(v, s) <- argument (hd false (params g)) a (meaning a) s;
      do '(w, s) <- argument (nth 1 (params g) false) b (meaning b) s;
      call funcs fn n [v; w] s
    | None =>
      match beq_bytes op (bs "!="), typ a with
      | true, TObj n =>                                  (* no neq: the negation of eq *)
        do '(v, s) <- place a (meaning a) s; do '(w, s) <- place b (meaning b) s;
        do '(r, s) <- call funcs fn (n ++ bs "__eq") [v; w] s; do r <- opposite r; Ok (r, s)
      | _, _ => do '(v, s) <- meaning a s; do '(w, s) <- meaning b s; do r <- builtin arith op v w; Ok (r, s)
      end
    end
  | SMethod m a =>
    match named m (typ a) with
    | Some (n, g) => do '(v, s) <- argument true a (meaning a) s; call funcs fn n [v] s
    | None => Panic
    end
  | SAssign op x t b =>
    do '(r, s) <-
      match binary_op op t (typ b) with
      | Some (n, g) =>
        do '(v, s) <- argument (hd false (params g)) (SVar x t) (fun s => Ok (mem s (LVar x), s)) s;
        do '(w, s) <- argument (nth 1 (params g) false) b (meaning b) s;
        call funcs fn n [v; w] s
      | None => do '(w, s') <- meaning b s; do r <- builtin arith op (mem s (LVar x)) w; Ok (r, s')
      end;
    Ok (r, store (LVar x) r s)
  end.

(** What the compiler handles: where a pointer is made the operand is a variable, a call, a
    method, an initializer or a binary operation; a right operand that is a pointer is passed as one;
    unary operators and compound assignment do not look at traits, and compound assignment
    does not make pointers. *)
Definition short (t : ty) (m : bytes) : Prop := match struct_of t with Some (s, _) => length s + length m < 254 | None => True end.
Definition addressable (e : src) : Prop :=
  match e with
  | SCond _ _ _ | SConst false _ _ => False
  | SUn op a => unary_op op (typ a) <> None
  | _ => True
  end.
Definition self_ok (pointer : bool) (e : src) : Prop := pointer = true -> is_pointer (typ e) = false -> addressable e.
Definition rhs_ok (pointer : bool) (e : src) : Prop :=
  (pointer = true -> is_pointer (typ e) = false -> addressable e) /\ (pointer = false -> is_pointer (typ e) = false).
Definition names_ok (t : ty) (m : bytes) : Prop :=
  match struct_of t with Some (s, _) => Forall (fun i => fst i = s -> length s + length (snd i) + length m < 253) impls | None => True end.
Definition direct (t : ty) (m : bytes) : Prop :=
  match struct_of t with Some (s, _) => from_traits impls s m = None \/ find (s ++ bs "__" ++ m) funcs <> None | None => True end.

Fixpoint fine (e : src) : Prop :=
  match e with
  | SVar _ _ | SConst _ _ _ => True
  | SCond c a b => fine c /\ fine a /\ fine b
  | SUn op a =>
    fine a /\ (op = bs "-" \/ op = bs "!" \/ op = bs "~")
    /\ (forall m, unary_method op = Some m -> short (typ a) m /\ direct (typ a) m)
    /\ (forall n g, unary_op op (typ a) = Some (n, g) -> self_ok (hd false (params g)) a)
  | SBin op a b =>
    fine a /\ fine b /\ op <> bs "="
    /\ (forall m, operator_method op = Some m -> short (typ a) m /\ names_ok (typ a) m)
    /\ (forall n g, binary_op op (typ a) (typ b) = Some (n, g) -> self_ok (hd false (params g)) a /\ rhs_ok (nth 1 (params g) false) b)
    /\ (binary_op op (typ a) (typ b) = None -> op = bs "==" -> is_pointer (typ a) = true \/ typ a = TNum)
  | SMethod m a =>
    fine a /\ short (typ a) m /\ names_ok (typ a) m
    /\ exists n g, named m (typ a) = Some (n, g) /\ hd false (params g) = true /\ self_ok true a
  | SAssign op x t b =>
    fine b /\ op <> bs "=" /\ is_comparison op = false
    /\ (forall m, operator_method op = Some m -> short t m /\ direct t m)
    /\ (forall n g, binary_op op t (typ b) = Some (n, g) -> nth 1 (params g) false = is_pointer (typ b))
  end.
End program.
