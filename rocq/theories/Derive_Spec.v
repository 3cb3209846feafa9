(** Equality of values: the same contents. *)
From Verif Require Import Common Derive_Model.
Local Open Scope nat_scope.

(** A value of a type *)
Inductive of_type : ty -> val -> Prop :=
| of_int z : of_type TInt (VInt z)
| of_float f : of_type TFloat (VFloat f)
| of_ptr a : of_type TPtr (VPtr a)
| of_str s : of_type TStr (VStr s)
| of_arr t a l : all_of t l -> of_type (TArr t) (VArr a l)
| of_enum vs tag t p : variant vs tag t -> of_type t p -> of_type (TEnum vs) (VEnum tag p)
| of_struct fs l : of_types fs l -> of_type (TStruct fs) (VStruct l)
with of_types : tys -> vals -> Prop :=
| of_nil : of_types TNil VNil
| of_cons t ts v l : of_type t v -> of_types ts l -> of_types (TCons t ts) (VCons v l)
with all_of : ty -> vals -> Prop :=
| all_nil t : all_of t VNil
| all_cons t v l : of_type t v -> all_of t l -> all_of t (VCons v l)
with variant : tys -> nat -> ty -> Prop :=
| variant_here t ts : variant (TCons t ts) 0 t
| variant_later t ts n u : variant ts n u -> variant (TCons t ts) (S n) u.

(** Equality: numbers as numbers (nothing equals a NaN), pointers as addresses, strings and
    arrays by what they hold, enums by variant and payload, structs field by field *)
Inductive same : val -> val -> Prop :=
| same_int z : same (VInt z) (VInt z)
| same_float x : same (VFloat (Num x)) (VFloat (Num x))
| same_ptr a : same (VPtr a) (VPtr a)
| same_str s : same (VStr s) (VStr s)
| same_arr a b l m : sames l m -> same (VArr a l) (VArr b m)
| same_enum tag p q : same p q -> same (VEnum tag p) (VEnum tag q)
| same_struct l m : sames l m -> same (VStruct l) (VStruct m)
with sames : vals -> vals -> Prop :=
| sames_nil : sames VNil VNil
| sames_cons v w l m : same v w -> sames l m -> sames (VCons v l) (VCons w m).

(** Types without arrays and without payloads in enums *)
Fixpoint bare (ts : tys) : Prop := match ts with TNil => True | TCons t ts => t = TStruct TNil /\ bare ts end.
Fixpoint comparable (t : ty) : Prop :=
  match t with
  | TInt | TFloat | TPtr | TStr => True
  | TArr _ => False
  | TEnum vs => bare vs
  | TStruct fs => comparables fs
  end
with comparables (ts : tys) : Prop := match ts with TNil => True | TCons t ts => comparable t /\ comparables ts end.
(** Values without null strings *)
Fixpoint no_null (v : val) : Prop :=
  match v with
  | VStr None => False
  | VArr _ l | VStruct l => no_nulls l
  | VEnum _ p => no_null p
  | _ => True
  end
with no_nulls (l : vals) : Prop := match l with VNil => True | VCons v l => no_null v /\ no_nulls l end.
(** ... and without NaN *)
Fixpoint no_nan (v : val) : Prop :=
  match v with
  | VFloat NaN => False
  | VArr _ l | VStruct l => no_nans l
  | VEnum _ p => no_nan p
  | _ => True
  end
with no_nans (l : vals) : Prop := match l with VNil => True | VCons v l => no_nan v /\ no_nans l end.

(** Field lists one after the other *)
Fixpoint app_t (x y : tys) : tys := match x with TNil => y | TCons t x => TCons t (app_t x y) end.
Fixpoint app_v (x y : vals) : vals := match x with VNil => y | VCons v x => VCons v (app_v x y) end.

(** The method's body: the comparisons joined with && *)
Fixpoint join (sep : bytes) (l : list bytes) : bytes :=
  match l with [] => [] | [x] => x | x :: l => x ++ sep ++ join sep l end.
Definition body_of (fs : list (bytes * cmp)) : bytes :=
  bs "return " ++ (match fs with [] => bs "true" | _ => join (bs " && ") (map cmp_text fs) end) ++ bs ";".
