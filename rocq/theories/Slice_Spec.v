(** What is in memory at a pointer. *)
From Verif Require Import Common Slice_Model.
Local Open Scope Z_scope.

Section Spec.
Variable T : Type.
(** [vs] are the elements from [p] on, in one live block *)
Definition at_ (m : mem T) (p : ptr) (vs : list T) : Prop :=
  exists b pre post, p = Some (b, Z.of_nat (length pre)) /\ nth_error m b = Some (Live T (pre ++ vs ++ post)).
(** [q] is one of the [n] elements from [p] on *)
Definition within (p : ptr) (n : nat) (q : ptr) : Prop := exists k, (k < n)%nat /\ q = shift p (Z.of_nat k).
(** apart from the [n] elements at [p], the memory is the same *)
Definition only (p : ptr) (n : nat) (m m' : mem T) : Prop := forall q, ~ within p n q -> load T m' q = load T m q.
End Spec.
