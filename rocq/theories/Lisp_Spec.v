(** What a block of lisp means, without the plugin. *)
From Verif Require Import Common Lisp_Model.
Local Open Scope nat_scope.

Inductive op2 := Add | Sub | Mul | Div | Lt | Cons.
Inductive op1 := Car | Cdr.
Inductive le :=
| LNum (neg : bool) (ds : bytes)
| LVar (x : bytes)
| LTwo (o : op2) (a b : le)
| LOne (o : op1) (a : le)
| LIf (c a b : le)
| LIf1 (c a : le)
| LLet (b : lbl)
| LCall (f : bytes) (l : les)
with les := LEnd | LArg (e : le) (l : les)
with lbl := LBody (e : le) | LBind (x : bytes) (e : le) (b : lbl).

(** * The text *)
Definition name2 (o : op2) : bytes :=
  match o with Add => bs "+" | Sub => bs "-" | Mul => bs "*" | Div => bs "/" | Lt => bs "<" | Cons => bs "cons" end.
Definition name1 (o : op1) : bytes := match o with Car => bs "car" | Cdr => bs "cdr" end.
(** [w]: the white space between two words, [w0]: the one inside parentheses, that may be missing *)
Section Text.
Variables w w0 : bytes.
Definition paren (t : bytes) : bytes := bs "(" ++ w0 ++ t ++ w0 ++ bs ")".
Fixpoint written (e : le) : bytes :=
  match e with
  | LNum neg ds => (if neg then bs "-" else []) ++ ds
  | LVar x => x
  | LTwo o a b => paren (name2 o ++ w ++ written a ++ w ++ written b)
  | LOne o a => paren (name1 o ++ w ++ written a)
  | LIf c a b => paren (bs "if" ++ w ++ written c ++ w ++ written a ++ w ++ written b)
  | LIf1 c a => paren (bs "if" ++ w ++ written c ++ w ++ written a)
  | LLet b => paren (bs "let" ++ w ++ bs "(" ++ w0 ++ written_block b)
  | LCall f l => paren (f ++ written_args l)
  end
with written_args (l : les) : bytes := match l with LEnd => [] | LArg e l => w ++ written e ++ written_args l end
with written_block (b : lbl) : bytes :=
  match b with
  | LBody e => bs ")" ++ w ++ written e
  | LBind x e b => paren (x ++ w ++ written e) ++ w ++ written_block b
  end.
(** A block: its expressions, one behind the other *)
Fixpoint written_program (l : les) : bytes := match l with LEnd => [] | LArg e l => written e ++ w ++ written_program l end.
End Text.

Definition blank (c : N) : Prop := (c = 32 \/ 9 <= c <= 13)%N.
Definition layout (w w0 : bytes) : Prop := w <> [] /\ Forall blank w /\ Forall blank w0.

(** * Names and numbers *)
Definition letter (c : N) : Prop := (65 <= c <= 90 \/ 97 <= c <= 122 \/ c = 95)%N.
Definition figure (c : N) : Prop := (48 <= c <= 57)%N.
Definition identifier (x : bytes) : Prop :=
  match x with c :: r => letter c /\ Forall (fun c => letter c \/ figure c) r | [] => False end.
Fixpoint decimal (ds : bytes) : Z :=
  match ds with [] => 0%Z | c :: ds => ((Z.of_N c - 48) * 10 ^ Z.of_nat (length ds) + decimal ds)%Z end.
(** without needless zeros, in the range of long *)
Definition numeral (ds : bytes) : Prop :=
  ds <> [] /\ Forall figure ds /\ (ds = bs "0" \/ hd 0%N ds <> 48%N) /\ (decimal ds < 2 ^ 63)%Z.
Definition words : list bytes := [bs "cons"; bs "car"; bs "cdr"; bs "list"; bs "if"; bs "let"; bs "defun"].

Fixpoint well_written (e : le) : Prop :=
  match e with
  | LNum _ ds => numeral ds
  | LVar x => identifier x
  | LTwo _ a b => well_written a /\ well_written b
  | LOne _ a => well_written a
  | LIf c a b => well_written c /\ well_written a /\ well_written b
  | LIf1 c a => well_written c /\ well_written a
  | LLet b => well_written_block b
  | LCall f l => identifier f /\ ~ In f words /\ firstn 5 f <> bs "print" /\ well_written_args l
  end
with well_written_args (l : les) : Prop := match l with LEnd => True | LArg e l => well_written e /\ well_written_args l end
with well_written_block (b : lbl) : Prop :=
  match b with LBody e => well_written e | LBind x e b => identifier x /\ well_written e /\ well_written_block b end.

(** * Variables and functions that exist *)
Fixpoint args (l : les) : nat := match l with LEnd => 0 | LArg _ l => S (args l) end.
Fixpoint bound (b : lbl) : list bytes := match b with LBody _ => [] | LBind x _ b => x :: bound b end.
(** The variables an expression looks at *)
Fixpoint looks (x : bytes) (e : le) : Prop :=
  match e with
  | LNum _ _ => False
  | LVar y => x = y
  | LTwo _ a b => looks x a \/ looks x b
  | LOne _ a => looks x a
  | LIf c a b => looks x c \/ looks x a \/ looks x b
  | LIf1 c a => looks x c \/ looks x a
  | LLet b => looks_block x b
  | LCall _ l => looks_args x l
  end
with looks_args (x : bytes) (l : les) : Prop := match l with LEnd => False | LArg e l => looks x e \/ looks_args x l end
with looks_block (x : bytes) (b : lbl) : Prop := match b with LBody e => looks x e | LBind _ e b => looks x e \/ looks_block x b end.
Fixpoint looks_bindings (x : bytes) (b : lbl) : Prop := match b with LBody _ => False | LBind _ e b => looks x e \/ looks_bindings x b end.

Section Exist.
Variable arity : bytes -> option nat.
(** A variable is not named like a function, nor like one of the runtime *)
Definition variable_name (x : bytes) : Prop := arity x = None /\ firstn 2 x <> bs "l_".
Fixpoint exists_all (vars : list bytes) (e : le) : Prop :=
  match e with
  | LNum _ _ => True
  | LVar x => In x vars \/ x = bs "nil"
  | LTwo _ a b => exists_all vars a /\ exists_all vars b
  | LOne _ a => exists_all vars a
  | LIf c a b => exists_all vars c /\ exists_all vars a /\ exists_all vars b
  | LIf1 c a => exists_all vars c /\ exists_all vars a
  | LLet b => NoDup (bound b) /\ Forall variable_name (bound b) /\ (forall x, In x (bound b) -> ~ looks_bindings x b) /\
              exists_block vars (bound b ++ vars) b
  | LCall f l => arity f = Some (args l) /\ firstn 2 f <> bs "l_" /\ exists_args vars l
  end
with exists_args (vars : list bytes) (l : les) : Prop :=
  match l with LEnd => True | LArg e l => exists_all vars e /\ exists_args vars l end
with exists_block (vars inner : list bytes) (b : lbl) : Prop :=
  match b with LBody e => exists_all inner e | LBind _ e b => exists_all vars e /\ exists_block vars inner b end.
End Exist.

(** * Values *)
Definition place := bytes -> option val.
Definition put (x : bytes) (v : val) (r : place) : place := fun y => if beq_bytes y x then Some v else r y.
Definition in_long (z : Z) : bool := ((- 2 ^ 63 <=? z) && (z <? 2 ^ 63))%Z.
(** [Panic]: an error in lisp; [UB]: beyond a long *)
Definition number_value (z : Z) : res val := if in_long z then Ok (VNum z) else UB.
Definition value2 (o : op2) (a b : val) : res val :=
  match o, a, b with
  | Cons, _, _ => Ok (VPair a b)
  | Add, VNum x, VNum y => number_value (x + y)
  | Sub, VNum x, VNum y => number_value (x - y)
  | Mul, VNum x, VNum y => number_value (x * y)
  | Div, VNum x, VNum y => if (y =? 0)%Z then Panic else number_value (Z.quot x y)
  | Lt, VNum x, VNum y => Ok (if (x <? y)%Z then VNum 1 else VNil)
  | _, _, _ => Panic
  end.
Definition value1 (o : op1) (a : val) : res val :=
  match o, a with
  | Car, VPair x _ => Ok x
  | Cdr, VPair _ y => Ok y
  | _, VNil => Ok VNil
  | _, VNum _ => Panic
  end.
Section Lisp.
Variable fn : bytes -> list val -> res val.
Fixpoint lisp (r : place) (e : le) : res val :=
  match e with
  | LNum neg ds => Ok (VNum (if neg then - decimal ds else decimal ds))
  | LVar x => match r x with Some v => Ok v | None => if beq_bytes x (bs "nil") then Ok VNil else Panic end
  | LTwo o a b => do x <- lisp r a; do y <- lisp r b; value2 o x y
  | LOne o a => do x <- lisp r a; value1 o x
  | LIf c a b => do v <- lisp r c; match v with VNil => lisp r b | _ => lisp r a end
  | LIf1 c a => do v <- lisp r c; match v with VNil => Ok VNil | _ => lisp r a end
  | LLet b => lisp_block r r b
  | LCall f l => do vs <- lisp_args r l; fn f vs
  end
with lisp_args (r : place) (l : les) : res (list val) :=
  match l with LEnd => Ok [] | LArg e l => do v <- lisp r e; do vs <- lisp_args r l; Ok (v :: vs) end
(** the bindings of let see what was there before it *)
with lisp_block (r inner : place) (b : lbl) : res val :=
  match b with
  | LBody e => lisp inner e
  | LBind x e b => do v <- lisp r e; lisp_block r (put x v inner) b
  end.
(** A block: the value of its last expression *)
Definition lisp_program (r : place) (l : les) : res val :=
  do vs <- lisp_args r l; match vs with [] => Panic | _ => Ok (last vs VNil) end.
End Lisp.

(** Variables around a block, with their values *)
Fixpoint value_in (r : list (bytes * val)) : place :=
  fun x => match r with [] => None | (y, v) :: r => if list_eq_dec N.eq_dec x y then Some v else value_in r x end.
