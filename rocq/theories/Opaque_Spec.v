(** What it means to touch the inside of a struct. *)
From Verif Require Import Common Types_Model Opaque_Model.
Local Open Scope nat_scope.

Section Spec.
Variable real : bytes -> ty.                      (* the types variables have *)
Variable ret : bytes -> ty.                       (* and functions return *)
Variable fields : bytes -> bytes -> option ty.

(** the type an expression has *)
Inductive typed : ex -> ty -> Prop :=
  | t_var x : typed (EVar x) (real x)
  | t_call f : typed (ECall f) (ret f)
  | t_dot e f n t : typed e (TStruct n) -> fields n f = Some t -> typed (EDot e f) t
  | t_auto e f n t : typed e (TPointer (TStruct n)) -> fields n f = Some t -> typed (EDot e f) t
  | t_arrow e f n t : typed e (TPointer (TStruct n)) -> fields n f = Some t -> typed (EArrow e f) t
  | t_safe e f n t : typed e (TPointer (TStruct n)) -> fields n f = Some t -> typed (ESafe e f) t
  | t_index e s t : typed e (TArray s t) -> typed (EIndex e) t
  | t_pindex e t : typed e (TPointer t) -> typed (EIndex e) t
  | t_deref e t : typed e (TPointer t) -> typed (EDeref e) t
  | t_addr e t : typed e t -> typed (EAddr e) (TPointer t).
(** evaluating it reads a field of the struct [n] *)
Inductive touches : ex -> bytes -> Prop :=
  | to_dot e f n : typed e (TStruct n) \/ typed e (TPointer (TStruct n)) -> touches (EDot e f) n
  | to_arrow e f n : typed e (TPointer (TStruct n)) -> touches (EArrow e f) n
  | to_safe e f n : typed e (TPointer (TStruct n)) -> touches (ESafe e f) n
  | to_dot' e f n : touches e n -> touches (EDot e f) n
  | to_arrow' e f n : touches e n -> touches (EArrow e f) n
  | to_safe' e f n : touches e n -> touches (ESafe e f) n
  | to_index e n : touches e n -> touches (EIndex e) n
  | to_deref e n : touches e n -> touches (EDeref e) n
  | to_addr e n : touches e n -> touches (EAddr e) n.
End Spec.
