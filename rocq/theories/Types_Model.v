(** Model of type equality, src/ast/ast.c:97-218 (is_char_ptr, is_integer_type,
    is_float_type, type_eq).

    Simplifications: the two types are trees that share no node (the test a == b of line
    156 is then false everywhere); a pointer, array, vector and alias has an inner type, a
    struct, generic and alias has a name. *)
From Verif Require Import Common.
Local Open Scope nat_scope.

(** ast.h:29-81: the kinds that carry nothing type_eq looks at.  The integer kinds and the
    float kinds are numbered (there are 30 and 3); TYPE_CHAR is one of the integer kinds. *)
Inductive ty :=
| TChar                            (* TYPE_CHAR *)
| TIntK (k : nat)                  (* the other kinds is_integer_type lists, 116-126 *)
| TFloatK (k : nat)                (* TYPE_FLOAT, TYPE_F32, TYPE_F64 *)
| TString | TUnknown
| TPlain (k : nat)                 (* TYPE_VOID, TYPE_U0, TYPE_ENUM, TYPE_FUNCTION *)
| TStruct (name : bytes) | TGeneric (name : bytes)
| TPointer (inner : ty)
| TArray (size : Z) (inner : ty) | TVector (size : Z) (inner : ty)
| TAlias (opaque : bool) (name : bytes) (inner : ty).

(** ast.c:127-132 *)
Definition int_names : list bytes :=
  [bs "int8_t"; bs "uint8_t"; bs "int16_t"; bs "uint16_t"; bs "int32_t"; bs "uint32_t";
   bs "int64_t"; bs "uint64_t"; bs "size_t"; bs "ssize_t"; bs "ptrdiff_t"].
(** ast.c:109-133 *)
Definition is_integer (t : ty) : bool :=
  match t with
  | TChar | TIntK _ => true
  | TStruct n => existsb (beq_bytes n) int_names
  | _ => false
  end.
(** ast.c:135-143 *)
Definition is_float (t : ty) : bool := match t with TFloatK _ => true | _ => false end.
(** ast.c:97-107 *)
Definition is_char_ptr (t : ty) : bool :=
  match t with
  | TPointer TChar => true
  | TPointer (TStruct n) => beq_bytes n (bs "char")
  | _ => false
  end.
Definition is_unknown (t : ty) : bool := match t with TUnknown => true | _ => false end.
Definition is_string (t : ty) : bool := match t with TString => true | _ => false end.
(** ast.c:149-218 *)
Fixpoint type_eq (a b : ty) : bool :=
  if is_unknown a || is_unknown b then true
  else if is_integer a && is_integer b then true
  else if is_float a && is_float b then true
  else if is_string a && is_char_ptr b then true
  else if is_string b && is_char_ptr a then true
  else match a, b with
  | TStruct n, TStruct m => beq_bytes n m
  | TGeneric n, TGeneric m => beq_bytes n m
  | TAlias true n _, TAlias true m _ => beq_bytes n m
  | TAlias true _ _, TAlias false _ _ => false
  | TAlias false _ x, TAlias _ _ _ => type_eq x b
  | TPointer x, TPointer y => type_eq x y
  | TArray n x, TArray m y => (n =? m)%Z && type_eq x y
  | TVector n x, TVector m y => (n =? m)%Z && type_eq x y
  | TChar, TChar => true
  | TIntK j, TIntK k | TFloatK j, TFloatK k | TPlain j, TPlain k => j =? k
  | TString, TString => true
  | _, _ => false                  (* different kinds *)
  end.
