(** What indexing should mean: an array or a slice is a row of elements; element [i] of it is there when
    0 <= i < its length, and anything else stops the program. *)
From Verif Require Import Common Index_Model.
Local Open Scope Z_scope.

Section Spec.
  Variable op : nat -> Z -> Z -> Z.
  Variable g : nat -> ty.

  (** Where an expression's value is, or the integer it is *)
  Inductive place := Num (z : Z) | At (p : loc).
  Definition number (m : mem) (v : place) : res Z :=
    match v with
    | Num z => Ok z
    | At p => match load m p with Ok (VInt z) => Ok z | _ => UB end
    end.
  (** element [z] of a row of [n] elements, [k] cells each, that begins at [p] *)
  Definition pick (p : loc) (n : Z) (k : nat) (z : Z) : res place :=
    if (0 <=? z) && (z <? n) then Ok (At (fst p, snd p + z * Z.of_nat k)) else Panic.
  Fixpoint meaning (m : mem) (e : exp) : res place :=
    match e with
    | Lit z => Ok (Num z)
    | Var x => Ok (At (x, 0))
    | Op k a b => do x <- meaning m a; do x <- number m x; do y <- meaning m b; do y <- number m y; Ok (Num (op k x y))
    | Idx a i =>
      do r <- meaning m a; do z <- meaning m i; do z <- number m z;
      match r, typ g a with
      | At p, TArr n t => pick p (Z.of_nat n) (size t) z
      | At p, TSlice t => match load m p with Ok (VSlice q n) => pick q n (size t) z | _ => UB end
      | _, _ => UB
      end
    end.
  Definition content (m : mem) (r : place) : res cell :=
    match r with Num z => Ok (VInt z) | At p => load m p end.
  Definition step (m : mem) (s : stmt) : res mem :=
    match s with
    | Set_ a b =>
      do r <- meaning m a; do v <- meaning m b; do c <- content m v;
      match r with At p => store m p c | _ => UB end
    | View x a =>
      do r <- meaning m a;
      match r, typ g a with
      | At p, TArr n t => store m (x, 0) (VSlice p (Z.of_nat n))
      | _, _ => UB
      end
    end.
  Fixpoint steps (m : mem) (l : list stmt) : res mem :=
    match l with [] => Ok m | s :: l => do m <- step m s; steps m l end.

  (** Programs: typed, no raw pointers, and a slice is indexed only under its own name *)
  Fixpoint sound_type (t : ty) : Prop :=
    match t with
    | TInt => True
    | TArr n t => (0 < n)%nat /\ Z.of_nat n < 2 ^ 31 /\ sound_type t
    | TSlice t => sound_type t
    | TPtr _ => False
    end.
  Definition scalar (t : ty) : Prop := match t with TArr _ _ => False | _ => True end.
  Definition word (z : Z) : Prop := - 2 ^ 63 <= z < 2 ^ 64.
  Fixpoint good (vars : nat) (e : exp) : Prop :=
    match e with
    | Lit z => word z
    | Var x => (x < vars)%nat
    | Op k a b => good vars a /\ good vars b /\ typ g a = TInt /\ typ g b = TInt
    | Idx a i => good vars a /\ good vars i /\ typ g i = TInt
        /\ match typ g a with TArr _ _ => True | TSlice _ => is_var a = true | _ => False end
    end.
  Definition good_stmt (vars : nat) (s : stmt) : Prop :=
    match s with
    | Set_ a b => good vars a /\ good vars b /\ typ g a = typ g b /\ scalar (typ g a)
        /\ match a with Var _ | Idx _ _ => True | _ => False end
    | View x a => good vars a /\ (x < vars)%nat /\ exists n t, typ g a = TArr n t /\ g x = TSlice t
    end.

  (** Memory fits the types: the scalars of a type in order, and for each cell what it may hold. *)
  Fixpoint scalars (t : ty) : list ty :=
    match t with TArr n t => concat (repeat (scalars t) n) | t => [t] end.
  (** [ks]: for each object the types of its cells; from [p] on there are [n] elements of type [t] *)
  Definition row (ks : list (list ty)) (p : loc) (n : Z) (t : ty) : Prop :=
    exists o before after, nth_error ks (fst p) = Some o /\ 0 <= n
      /\ o = before ++ concat (repeat (scalars t) (Z.to_nat n)) ++ after /\ snd p = Z.of_nat (length before).
  Definition fits (ks : list (list ty)) (t : ty) (c : cell) : Prop :=
    match t, c with
    | TInt, VInt z => word z
    | TSlice t, VSlice p n => row ks p n t /\ n < 2 ^ 31
    | _, _ => False
    end.
  Definition sound_mem (vars : nat) (ks : list (list ty)) (m : mem) : Prop :=
    Forall2 (Forall2 (fits ks)) ks m
    /\ forall x, (x < vars)%nat -> sound_type (g x) /\ nth_error ks x = Some (scalars (g x)).
End Spec.
