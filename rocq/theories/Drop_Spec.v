(** Which structs own something to drop, and what dropping a value must do. *)
From Verif Require Import Common Drop_Model.
Local Open Scope nat_scope.

Section Spec.
Variable lookup : bytes -> option nat.

(** [s] has a field of struct type [y], by value *)
Definition holds (s : sdef) (name : bytes) (y : nat) : Prop :=
  exists tn, In (name, TStruct tn) (s_fields s) /\ lookup tn = Some y.

(** [x] declares Drop or contains, at some depth, a struct that does *)
Inductive owns (structs : list sdef) (declared : list nat) : nat -> Prop :=
| owns_here x : In x declared -> owns structs declared x
| owns_in s name y : In s structs -> holds s name y -> owns structs declared y -> owns structs declared (s_id s).

(** The object at [path] inside a value of type [x] has type [y] *)
Inductive inside (defs : nat -> option sdef) : nat -> list bytes -> nat -> Prop :=
| inside_here x : inside defs x [] x
| inside_in x s name y p z : defs x = Some s -> holds s name y -> inside defs y p z -> inside defs x (name :: p) z.
End Spec.
