(** What a user knows about literals and destructuring. *)
From Verif Require Import Common Destruct_Model.
Local Open Scope nat_scope.

(** A pattern as written: fields, each with the name of the variable or without. *)
Definition pat : Type := list (bytes * option bytes).
Definition pair_of (p : bytes * option bytes) : bytes * bytes :=
  (fst p, match snd p with Some n => n | None => fst p end).
Definition pat_tok (p : bytes * option bytes) : list ptok :=
  match snd p with Some n => [Name (fst p); Colon; Name n] | None => [Name (fst p)] end.
Fixpoint written {A} (tok : A -> list ptok) (close : ptok) (l : list A) : list ptok :=
  match l with
  | [] => []
  | [p] => tok p ++ [close]
  | p :: l => tok p ++ Comma :: written tok close l
  end.

(** The value of an expression does not depend on the state it is evaluated in. *)
Definition pure {V St} (e : expr V St) (v : V) : Prop := forall s, fst (e s) = v.

(** The effects of expressions one after the other, each once. *)
Definition effects {V St} (l : list (bytes * expr V St)) (s : St) : St :=
  fold_left (fun s e => snd (snd e s)) l s.
