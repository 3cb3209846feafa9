(** What an if expression means: the condition, then one branch; its value is that of the branch's last expression,
    and what the branch defers runs when the branch ends. *)
From Verif Require Import Common Range_Model IfExpr_Model.
Local Open Scope Z_scope.

Section Spec.
  Variable St : Type.
  Variable atom : nat -> St -> res (Z * St).
  Variable aty : nat -> cty.

  Fixpoint atoms (l : list nat) (s : St) : res St :=
    match l with [] => Ok s | a :: l => do '(_, s) <- atom a s; atoms l s end.
  Fixpoint meaning (e : exp) (s : St) : res (Z * St) :=
    match e with
    | Atom a => atom a s
    | If c t e =>
      do '(x, s) <- meaning c s;
      if x =? 0 then match e with Else b => branch b [] s | NoElse => Panic end else branch t [] s
    end
  with branch (b : block) (ds : list nat) (s : St) : res (Z * St) :=
    match b with
    | Last e => do '(v, s) <- meaning e s; do s <- atoms ds s; Ok (v, s)
    | Then (Do e) b => do '(_, s) <- meaning e s; branch b ds s
    | Then (Defer d) b => branch b (d :: ds) s
    end.
  Fixpoint body (l : list stmt) (ds : list nat) (s : St) : res St :=
    match l with
    | [] => atoms ds s
    | Do e :: l => do '(_, s) <- meaning e s; body l ds s
    | Defer d :: l => body l (d :: ds) s
    end.

  (** The type of an expression is that of its first branch.  [plain]: every if has an else of the same type
      and defers nothing inside. *)
  Fixpoint etype (e : exp) : cty := match e with Atom a => aty a | If _ t _ => btype t end
  with btype (b : block) : cty := match b with Last e => etype e | Then _ b => btype b end.
  Fixpoint plain (e : exp) : Prop :=
    match e with
    | Atom _ => True
    | If c t e => plain c /\ plain_block t /\ match e with Else b => plain_block b /\ btype b = btype t | NoElse => False end
    end
  with plain_stmt (s : stmt) : Prop := match s with Do e => plain e | Defer _ => False end
  with plain_block (b : block) : Prop := match b with Last e => plain e | Then s b => plain_stmt s /\ plain_block b end.
  (** Atoms give values of their types. *)
  Definition typed : Prop := forall a s v s', atom a s = Ok (v, s') -> lo (aty a) <= v <= hi (aty a).
End Spec.
