(** Calling a method of a trait object runs its own type's method with the same arguments. *)
From Verif Require Import Common Trait_Model.
Local Open Scope nat_scope.

(** A word: no space, star or comma *)
Definition word (w : bytes) : Prop := Forall (fun c => c <> 32%N /\ c <> ch "*" /\ c <> ch ",") w.
Definition no_comma (w : bytes) : Prop := ~ In (ch ",") w.
Definition plain (p : param) : Prop := no_comma (ptype p) /\ ptype p <> [] /\ ~ In 32%N (firstn 1 (ptype p)) /\ word (pname p) /\ pname p <> [].
(** The parameter list as C declares it, and the names in a call *)
Fixpoint join (sep : bytes) (l : list bytes) : bytes :=
  match l with [] => [] | [x] => x | x :: l => x ++ sep ++ join sep l end.
Definition declared (m : method) : bytes :=
  join (bs ", ") ((if mself m then [self_text] else []) ++ map (fun p => ptype p ++ bs " " ++ pname p) (mparams m)).
Definition passed (m : method) : bytes := join (bs ", ") (map pname (mparams m)).

(** The C compiler accepts the program: no symbol is defined twice *)
Definition accepted (prog : list impl) : Prop :=
  NoDup (map (fun i => table_symbol (istruct i) (itrait i)) prog) /\ NoDup (map fst (functions prog))
  /\ Forall (fun i => NoDup (map fst (imethods i))) prog.
