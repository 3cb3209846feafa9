(** Specification: the meaning of the source.  Every operand is evaluated once, the right
    operand of &&, ||, ?? and ??= only when it is needed, and the place a compound assignment
    writes to is the place it read. *)
From Verif Require Import Common Ops_Model.
Local Open Scope Z_scope.

Section Meaning.
  Variable ord : order.
  Variable op_val : N -> Z -> Z -> Z.
  Variable fun_val : N -> Z -> mem -> Z * mem.

  Definition assign (w : world) (l : loc) (v : Z) : world := (store (fst w) l v, snd w).

  Fixpoint eval (w : world) (e : expr) : Z * world :=
    match e with
    | EConst z => (z, w)
    | ERead t => let '(l, w1) := place w t in (load (fst w1) l, w1)
    | ECall f e => let '(v, w1) := eval w e in call fun_val f v w1
    | EBin op a b =>
      match ord with
      | LeftFirst => let '(x, w1) := eval w a in let '(y, w2) := eval w1 b in (op_val op x y, w2)
      | RightFirst => let '(y, w1) := eval w b in let '(x, w2) := eval w1 a in (op_val op x y, w2)
      end
    | EAnd a b =>
      let '(x, w1) := eval w a in
      if x =? 0 then (0, w1) else let '(y, w2) := eval w1 b in (if y =? 0 then 0 else 1, w2)
    | EOr a b =>
      let '(x, w1) := eval w a in
      if x =? 0 then let '(y, w2) := eval w1 b in (if y =? 0 then 0 else 1, w2) else (1, w1)
    | ECoal a b => let '(x, w1) := eval w a in if x =? 0 then eval w1 b else (x, w1)
    | EAssign t e =>
      match ord with
      | LeftFirst => let '(l, w1) := place w t in let '(v, w2) := eval w1 e in (v, assign w2 l v)
      | RightFirst => let '(v, w1) := eval w e in let '(l, w2) := place w1 t in (v, assign w2 l v)
      end
    | ECompound op t e =>
      match ord with
      | LeftFirst =>
        let '(l, w1) := place w t in
        let x := load (fst w1) l in
        let '(y, w2) := eval w1 e in
        let v := op_val op x y in (v, assign w2 l v)
      | RightFirst =>
        let '(y, w1) := eval w e in
        let '(l, w2) := place w1 t in
        let v := op_val op (load (fst w2) l) y in (v, assign w2 l v)
      end
    | ECoalAssign t e =>
      let '(l, w1) := place w t in
      let x := load (fst w1) l in
      if x =? 0 then let '(y, w2) := eval w1 e in (y, assign w2 l y) else (x, w1)
    end
  with place (w : world) (t : target) : loc * world :=
    match t with
    | TVar x => (AtVar x, w)
    | TElem a i => let '(v, w1) := eval w i in (AtElem a v, w1)
    end.
End Meaning.

(** Expressions that only read *)
Fixpoint pure (e : expr) : Prop :=
  match e with
  | EConst _ => True
  | ERead t => pure_target t
  | EBin _ a b | EAnd a b | EOr a b | ECoal a b => pure a /\ pure b
  | ECall _ _ | EAssign _ _ | ECompound _ _ _ | ECoalAssign _ _ => False
  end
with pure_target (t : target) : Prop := match t with TVar _ => True | TElem _ i => pure i end.

(** The targets of compound assignments only read; those of ??= do not depend on what the
    right side does, if that is evaluated before the place to write to *)
Fixpoint simple (ord : order) (e : expr) : Prop :=
  match e with
  | EConst _ => True
  | ERead t => simple_target ord t
  | ECall _ e => simple ord e
  | EBin _ a b | EAnd a b | EOr a b | ECoal a b => simple ord a /\ simple ord b
  | EAssign t e => simple_target ord t /\ simple ord e
  | ECompound _ t e => pure_target t /\ simple_target ord t /\ simple ord e
  | ECoalAssign t e =>
    pure_target t /\ simple_target ord t /\ simple ord e
    /\ match ord, t with
       | RightFirst, TElem _ _ => pure e
       | _, _ => True
       end
  end
with simple_target (ord : order) (t : target) : Prop :=
  match t with TVar _ => True | TElem _ i => simple ord i end.

(** No variable is called like the temporary of ?? *)
Fixpoint clean (e : expr) : Prop :=
  match e with
  | EConst _ => True
  | ERead t => clean_target t
  | ECall _ e => clean e
  | EBin _ a b | EAnd a b | EOr a b | ECoal a b => clean a /\ clean b
  | EAssign t e | ECompound _ t e | ECoalAssign t e => clean_target t /\ clean e
  end
with clean_target (t : target) : Prop :=
  match t with TVar x => x <> bs "_l" | TElem _ i => clean i end.
