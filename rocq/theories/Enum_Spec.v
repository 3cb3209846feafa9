(** What match on an enum should do. *)
From Verif Require Import Common Enum_Model.
Local Open Scope Z_scope.

Section Spec.
Variable T : Type.
(** the arm is for the variant [v] of the enum [en] *)
Definition is_for (en v : bytes) (a : arm) : Prop := match a with Wild => True | Pat alts _ => In (en, v) alts end.
(** what its names are bound to *)
Definition bound_to (xs : list T) (a : arm) : list (list T) :=
  match a with
  | Wild | Pat _ 0 => []
  | Pat _ 1 => [xs]
  | Pat _ n => map (fun x => [x]) (firstn n xs)
  end.
(** the first arm for [v], and what it binds *)
Inductive chosen (en v : bytes) (xs : list T) : list arm -> option (nat * list (list T)) -> Prop :=
  | none : chosen en v xs [] None
  | here a l : is_for en v a -> chosen en v xs (a :: l) (Some (0%nat, bound_to xs a))
  | next a l k b : ~ is_for en v a -> chosen en v xs l (Some (k, b)) -> chosen en v xs (a :: l) (Some (S k, b))
  | never a l : ~ is_for en v a -> chosen en v xs l None -> chosen en v xs (a :: l) None.

Definition no_under (n : bytes) : Prop := ~ In 95%N n.
(** enums without explicit values, with different names, whose variants have different names
    without underscores *)
Definition plain (es : list enum) : Prop :=
  NoDup (map ename es) /\
  forall e, In e es -> NoDup (map vname (variants e)) /\ forall x, In x (variants e) -> explicit x = None /\ no_under (vname x).
(** an arm over the variants of [e], which binds at most eight names, in number up to those of
    the payload *)
Definition good_arm (e : enum) (a : arm) : Prop :=
  match a with
  | Wild => True
  | Pat alts n => (forall en v, In (en, v) alts -> en = ename e /\ In v (map vname (variants e))) /\
      (n = 0%nat \/ ((n <= 8)%nat /\ exists x, In x (variants e) /\ alts = [(ename e, vname x)] /\ (0 < payload x)%nat /\ (n = 1%nat \/ (n <= payload x)%nat)))
  end.
End Spec.
