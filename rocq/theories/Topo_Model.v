(** Model of the ordering of type definitions in the generated C,
    src/codegen/codegen_main.c:8-260.

    The field and payload types are the strings the code looks at (for payloads the result
    of type_to_string).  Simplification: count * count does not overflow an int. *)
From Verif Require Import Common.
Local Open Scope nat_scope.

Inductive node :=
| NStruct (name : bytes) (fields : list (option bytes))      (* None: not a NODE_FIELD, or without type *)
| NEnum (name : bytes) (payloads : list (option bytes))      (* None: a variant without payload *)
| NTrait (name : bytes)
| NOther.

Definition has_star (s : bytes) : bool := existsb (N.eqb 42) s.
(** codegen_main.c:33-45 *)
Definition clean (s : bytes) : bytes :=
  if is_prefix (bs "struct ") s then skipn 7 s
  else if is_prefix (bs "enum ") s then skipn 5 s
  else if is_prefix (bs "union ") s then skipn 6 s
  else s.
(** isspace in the C locale *)
Definition isspace (c : N) : bool := (c =? 32)%N || ((9 <=? c)%N && (c <=? 13)%N).
(** codegen_main.c:24-56, 71-103: one field or payload *)
Definition field_depends (ty target : bytes) : bool :=
  if has_star ty then false
  else is_prefix target (clean ty) &&
       match skipn (length target) (clean ty) with
       | [] => true
       | c :: _ => (c =? 91)%N || isspace c
       end.
(** codegen_main.c:9-112 *)
Definition struct_depends_on (s : node) (target : bytes) : bool :=
  match s with
  | NStruct _ l | NEnum _ l => existsb (fun f => match f with Some ty => field_depends ty target | None => false end) l
  | _ => false
  end.

Definition is_type_node (n : node) : bool := match n with NOther => false | _ => true end.
Definition is_trait (n : node) : bool := match n with NTrait _ => true | _ => false end.
(** codegen_main.c:187-196 *)
Definition dep_name (n : node) : option bytes :=
  match n with NStruct m _ | NEnum m _ => Some m | _ => None end.

Section Sort.
Variable nodes : list node.
Definition node_at (i : nat) : node := nth i nodes NOther.
(** emitted[i], set exactly when i is put into the order array *)
Definition emitted (order : list nat) (i : nat) : bool := existsb (Nat.eqb i) order.
(** codegen_main.c:178-202 *)
Definition can_emit (order : list nat) (i : nat) : bool :=
  forallb (fun j => (i =? j) || emitted order j ||
    match dep_name (node_at j) with
    | Some m => negb (struct_depends_on (node_at i) m)
    | None => true
    end) (seq 0 (length nodes)).
(** codegen_main.c:161-210: one index *)
Definition visit (st : list nat * bool) (i : nat) : list nat * bool :=
  let '(order, changed) := st in
  if emitted order i then st
  else if is_trait (node_at i) then (order ++ [i], true)
  else if can_emit order i then (order ++ [i], true)
  else st.
Definition pass (order : list nat) : list nat * bool :=
  fold_left visit (seq 0 (length nodes)) (order, false).
(** codegen_main.c:156-212 *)
Fixpoint passes (iterations : nat) (order : list nat) : list nat :=
  match iterations with
  | O => order
  | S k => let '(order', changed) := pass order in if changed then passes k order' else order'
  end.
(** codegen_main.c:214-221 *)
Definition final_order : list nat :=
  let order := passes (length nodes * length nodes) [] in
  order ++ filter (fun i => negb (emitted order i)) (seq 0 (length nodes)).
End Sort.

(** codegen_main.c:115-251 *)
Definition topo_sort_structs (head : list node) : list node :=
  let nodes := filter is_type_node head in
  match nodes with
  | [] => head
  | _ => map (node_at nodes) (final_order nodes)
  end.
