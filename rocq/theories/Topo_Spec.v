(** What it means to emit types in dependency order. *)
From Verif Require Import Common Topo_Model.
From Coq Require Import Permutation.
Local Open Scope nat_scope.

(** The type written [ty] holds a [name] by value: possibly after "struct", "enum" or
    "union", it is the name, alone or followed by an array bound or a space, and there is
    no pointer in it *)
Definition by_value (ty name : bytes) : Prop :=
  ~ In 42%N ty /\
  exists kw rest, In kw [[]; bs "struct "; bs "enum "; bs "union "] /\ ty = kw ++ name ++ rest /\
    (rest = [] \/ exists c r, rest = c :: r /\ (c = 91%N \/ In c [32; 9; 10; 11; 12; 13]%N)).
Definition members (n : node) : list (option bytes) :=
  match n with NStruct _ l | NEnum _ l => l | _ => [] end.
Definition type_name (n : node) (name : bytes) : Prop :=
  match n with NStruct m _ | NEnum m _ => m = name | _ => False end.
(** [a] holds a [b] *)
Definition holds (a b : node) : Prop := exists ty name, In (Some ty) (members a) /\ type_name b name /\ by_value ty name.
(** Names are identifiers: no spaces and none of the three keywords *)
Definition good_name (name : bytes) : Prop :=
  ~ In 32%N name /\ ~ In name [bs "struct"; bs "enum"; bs "union"].
Definition good_names (l : list node) : Prop := forall n m, In n l -> type_name n m -> good_name m.

(** In [l], the type at position [i] holds the other type at position [j] *)
Definition needs (l : list node) (i j : nat) : Prop :=
  i <> j /\ exists a b, nth_error l i = Some a /\ nth_error l j = Some b /\ holds a b.
(** No cycle of by-value containment is reachable from position [i] *)
Definition acyclic_from (l : list node) (i : nat) : Prop := Acc (fun j i => needs l i j) i.
