(** What a programmer means by a call with names and omitted arguments, independently of
    how the compiler collects them. *)
From Verif Require Import Common Pratt_Model Pratt_Spec Args_Model.
Local Open Scope nat_scope.

(** The expression parameter number [i] of [ps] should receive: the argument written with
    its name, the unnamed argument at its position, or, if there is neither, its default *)
Inductive means (ps : list param) (args : list arg) (i : nat) : expr -> Prop :=
| m_named p j a : nth_error ps i = Some p -> nth_error args j = Some a -> a_name a = Some (p_name p) ->
    means ps args i (a_value a)
| m_position p a : nth_error ps i = Some p -> nth_error args i = Some a -> a_name a = None ->
    means ps args i (a_value a)
| m_default p d : nth_error ps i = Some p -> p_default p = Some d ->
    (forall j a, nth_error args j = Some a -> a_name a <> Some (p_name p)) ->
    (forall a, nth_error args i = Some a -> a_name a <> None) ->
    means ps args i d.

(** Every name written in the call is the name of the parameter at that position *)
Definition in_order (ps : list param) (args : list arg) : Prop :=
  forall j a x, nth_error args j = Some a -> a_name a = Some x ->
    match nth_error ps j with Some p => p_name p = x | None => True end.

(** The defaults that survive being printed: no conditional, "?", "?.", "->" or postfix
    increment, and members only of things other than numbers *)
Inductive printable : expr -> Prop :=
| P_int n : printable (EInt n)
| P_var x : printable (EVar x)
| P_un u e : printable e -> printable (EUn u e)
| P_cast x k e : printable e -> printable (ECast x k e)
| P_bin o l r : printable l -> printable r -> printable (EBin o l r)
| P_call f l : printable f -> Forall printable l -> printable (ECall f l)
| P_index a i : printable a -> printable i -> printable (EIndex a i)
| P_member e f : printable e -> (forall n, e <> EInt n) -> printable (EMember (TOp ODot false) e (TVar f)).

(** * Values: any interpretation of the constructors, and the names in scope *)
Record interp (V : Type) := {
  v_int : N -> V; v_un : unop -> V -> V; v_post : bool -> V -> V; v_cast : N -> nat -> V -> V;
  v_bin : binop -> V -> V -> V; v_tern : V -> V -> V -> V; v_try : V -> V; v_call : V -> list V -> V;
  v_index : V -> V -> V; v_member : tok -> V -> tok -> V }.
Arguments v_int {V}. Arguments v_un {V}. Arguments v_post {V}. Arguments v_cast {V}. Arguments v_bin {V}.
Arguments v_tern {V}. Arguments v_try {V}. Arguments v_call {V}. Arguments v_index {V}. Arguments v_member {V}.
Fixpoint eval {V} (I : interp V) (env : N -> V) (e : expr) : V :=
  match e with
  | EInt n => v_int I n
  | EVar x => env x
  | EUn u a => v_un I u (eval I env a)
  | EPost i a => v_post I i (eval I env a)
  | ECast t k a => v_cast I t k (eval I env a)
  | EBin o l r => v_bin I o (eval I env l) (eval I env r)
  | ETern c a b => v_tern I (eval I env c) (eval I env a) (eval I env b)
  | ETry a => v_try I (eval I env a)
  | ECall f l => v_call I (eval I env f) (map (eval I env) l)
  | EIndex a i => v_index I (eval I env a) (eval I env i)
  | EMember k a f => v_member I k (eval I env a) f
  end.
(** The names an expression mentions *)
Fixpoint names (e : expr) : list N :=
  match e with
  | EInt _ => []
  | EVar x => [x]
  | EUn _ a | EPost _ a | ECast _ _ a | ETry a | EMember _ a _ => names a
  | EBin _ a b | EIndex a b => names a ++ names b
  | ETern c a b => names c ++ names a ++ names b
  | ECall f l => names f ++ flat_map names l
  end.
(** The scope of the caller: its locals in front of the globals *)
Definition scope {V} (locals : N -> option V) (globals : N -> V) (x : N) : V :=
  match locals x with Some v => v | None => globals x end.
