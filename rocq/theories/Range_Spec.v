(** Ranges and loops over them, in terms of integers. *)
From Verif Require Import Common Range_Model.
Local Open Scope Z_scope.

(** [ls] are the members of the range from [a] to [b] in steps of [k], in order. *)
Definition inside (incl : bool) (k b x : Z) : Prop :=
  if 0 <? k then (if incl then x <= b else x < b) else (if incl then b <= x else b < x).
Definition range (incl : bool) (a b k : Z) (ls : list Z) : Prop :=
  forall n x, nth_error ls n = Some x <-> x = a + Z.of_nat n * k /\ inside incl k b x.

(** Run [body] for each member in turn, until it breaks. *)
Fixpoint for_each {S} (body : Z -> S -> res (ctl S)) (ls : list Z) (s : S) : res S :=
  match ls with
  | [] => Ok s
  | x :: r => do c <- body x s; match c with Next s' => for_each body r s' | Break s' => Ok s' end
  end.

Definition fits (t : cty) (z : Z) : Prop := lo t <= z <= hi t.
(** The number the step stands for *)
Definition step_value (st : option step) : Z :=
  match st with None => 1 | Some s => if dash s then - sval s else sval s end.
(** A step written as a positive or a negative number *)
Definition step_ok (st : option step) : Prop :=
  match st with
  | None => True
  | Some s => 0 < sval s /\ fits (stype s) (sval s) /\
              (dash s = true -> is_signed (promote (stype s)) = true)
  end.
