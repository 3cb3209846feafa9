(** Specification of `for x in v`: the loop over the live list.  It visits the positions that
    existed when it started, in order, each once, and shows the body the item that is at the
    position at that moment; it ends early when the body says so or when the position no
    longer exists. *)
From Verif Require Import Common ForIn_Model.
Local Open Scope nat_scope.

Section Spec.
  Context {A : Type}.
  (** [None]: the operation panics *)
  Definition act_spec (how : style) (pos : nat) (l : list A) (a : act A) : option (list A) :=
    match a with
    | Push x => Some (l ++ [x])
    | Insert k x => if k <=? length l then Some (firstn k l ++ x :: skipn k l) else None
    | Pop => match l with [] => None | _ => Some (removelast l) end
    | Remove k => if k <? length l then Some (firstn k l ++ skipn (S k) l) else None
    | Assign k x => if k <? length l then Some (upd l k x) else None
    | Clear | Free => Some []
    | Store x => match how with ByValue => Some l | ByRef => Some (upd l pos x) end
    end.
  Fixpoint acts_spec (how : style) (pos : nat) (l : list A) (acts : list (act A)) : option (list A) :=
    match acts with
    | [] => Some l
    | a :: r => match act_spec how pos l a with Some l' => acts_spec how pos l' r | None => None end
    end.

  Variable body : nat -> A -> list A -> list (act A) * ending.
  (** [n]: positions still to visit *)
  Fixpoint visit (n : nat) (how : style) (pos : nat) (l : list A) : option (list A * ending * list A) :=
    match n with
    | 0 => Some ([], Next, l)
    | S n =>
      match nth_error l pos with
      | None => Some ([], Next, l)
      | Some x =>
        match acts_spec how pos l (fst (body pos x l)) with
        | None => None
        | Some l' =>
          match snd (body pos x l) with
          | Next => match visit n how (S pos) l' with
                    | Some (xs, e, l'') => Some (x :: xs, e, l'')
                    | None => None
                    end
          | Break => Some ([x], Next, l')
          | Return => Some ([x], Return, l')
          end
        end
      end
    end.
  Definition for_spec (how : style) (l : list A) : option (list A * ending * list A) :=
    visit (length l) how 0 l.

  (** During the body, whatever it is given, the number of items stays between [lo] and [hi] *)
  Definition stays_between (how : style) (lo hi : nat) : Prop :=
    forall pos x l, lo <= length l <= hi -> pos < lo ->
    forall done rest l', fst (body pos x l) = done ++ rest -> acts_spec how pos l done = Some l' ->
    lo <= length l' <= hi.
End Spec.

(** The same for arrays: only stores in range *)
Section Arrays.
  Context {A : Type}.
  Fixpoint stores (l : list A) (acts : list (nat * A)) : list A :=
    match acts with [] => l | (i, x) :: r => stores (upd l i x) r end.
  Variable body : nat -> A -> list A -> list (nat * A) * ending.
  Fixpoint arr_visit (n pos : nat) (l : list A) : list A * ending * list A :=
    match n with
    | 0 => ([], Next, l)
    | S n =>
      match nth_error l pos with
      | None => ([], Next, l)
      | Some x =>
        let l' := stores l (fst (body pos x l)) in
        match snd (body pos x l) with
        | Next => let '(xs, e, l'') := arr_visit n (S pos) l' in (x :: xs, e, l'')
        | Break => ([x], Next, l')
        | Return => ([x], Return, l')
        end
      end
    end.
  Definition in_range : Prop :=
    forall pos x l i y, In (i, y) (fst (body pos x l)) -> i < length l.
End Arrays.
