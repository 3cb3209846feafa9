(** What a slice shows. *)
From Verif Require Import Common Slice_Model Slice_Spec Cut_Model.
Local Open Scope Z_scope.

Section Spec.
Variable T : Type.
(** the value [v] gives access to exactly [vs], or to at least [vs] if it is a pointer *)
Definition shows (m : mem T) (v : val) (vs : list T) : Prop :=
  match v with
  | VSlice p n => at_ T m p vs /\ n = Z.of_nat (length vs)
  | VPtr p => at_ T m p vs
  | _ => False
  end.
(** the elements numbered s, s+1, ..., e-1 *)
Definition part (s e : Z) (vs : list T) : list T := firstn (Z.to_nat (e - s)) (skipn (Z.to_nat s) vs).
(** an expression does not use the compiler's own names *)
Fixpoint plain (e : exp) : Prop :=
  match e with
  | Num _ => True
  | Var x => x <> bs "_arr" /\ x <> bs "_start" /\ x <> bs "_len"
  | Add a b | Sub a b => plain a /\ plain b
  end.
(** the expression is written out and has the value [z], or is left out and [z] is the default *)
Definition bound (g : env) (e : option exp) (default z : Z) : Prop :=
  match e with Some e => plain e /\ eval g e = Ok z | None => z = default end.
(** [a] is a chain of slice expressions on the variable [x] that stays in range; [vs] are the
    elements of the variable, [ws] those of the whole expression *)
Inductive chain (g : env) (x : bytes) (vs : list T) (isptr : bool) : src -> list T -> Prop :=
  | chain_var : x <> bs "_arr" -> chain g x vs isptr (SVar x) vs
  | chain_cut a ws so eo s e : chain g x vs isptr a ws ->
      bound g so 0 s -> bound g eo (Z.of_nat (length ws)) e ->
      (isptr = true -> eo <> None \/ exists b s' e', a = SCut b s' e') ->
      0 <= s <= e -> e <= Z.of_nat (length ws) -> chain g x vs isptr (SCut a so eo) (part s e ws).
End Spec.
