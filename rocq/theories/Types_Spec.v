(** The types on which comparison is an equivalence. *)
From Verif Require Import Common Types_Model.

(** no alias in it *)
Fixpoint no_alias (t : ty) : Prop :=
  match t with
  | TPointer x | TArray _ x | TVector _ x => no_alias x
  | TAlias _ _ _ => False
  | _ => True
  end.
(** moreover nothing unknown and no string *)
Fixpoint plain (t : ty) : Prop :=
  match t with
  | TPointer x | TArray _ x | TVector _ x => plain x
  | TAlias _ _ _ | TUnknown | TString => False
  | _ => True
  end.
(** The integer types: the kinds of integers and C's names for them *)
Inductive integer : ty -> Prop :=
| int_char : integer TChar
| int_kind k : integer (TIntK k)
| int_name n : In n [bs "int8_t"; bs "int16_t"; bs "int32_t"; bs "int64_t";
                     bs "uint8_t"; bs "uint16_t"; bs "uint32_t"; bs "uint64_t";
                     bs "size_t"; bs "ssize_t"; bs "ptrdiff_t"] -> integer (TStruct n).
(** Two plain types are the same but for the width of their integers and floats *)
Inductive same : ty -> ty -> Prop :=
| same_int a b : integer a -> integer b -> same a b
| same_float j k : same (TFloatK j) (TFloatK k)
| same_plain k : same (TPlain k) (TPlain k)
| same_struct n : same (TStruct n) (TStruct n)
| same_generic n : same (TGeneric n) (TGeneric n)
| same_pointer x y : same x y -> same (TPointer x) (TPointer y)
| same_array n x y : same x y -> same (TArray n x) (TArray n y)
| same_vector n x y : same x y -> same (TVector n x) (TVector n y).
