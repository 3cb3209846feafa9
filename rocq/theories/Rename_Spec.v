(** What finding and renaming a symbol should do. *)
From Verif Require Import Common Rename_Model.
Local Open Scope Z_scope.

(** the same character, except perhaps for the case of a letter A to Z *)
Definition same_letter (a b : N) : Prop :=
  a = b \/ (65 <= a <= 90 /\ b = a + 32)%N \/ (65 <= b <= 90 /\ a = b + 32)%N.
Definition same_but_case (a b : bytes) : Prop := Forall2 same_letter a b.
(** the addresses of a project are different, also without regard to case *)
Definition distinct_uris (p : project) : Prop := ForallOrdPairs (fun f g => ~ same_but_case (fst f) (fst g)) p.
(** the edits an editor is told to make in one file *)
Definition edits_for (changes : list (bytes * list edit)) (uri : bytes) : list edit :=
  flat_map (fun '(u, es) => if beq_bytes u uri then es else []) changes.

(** every name a program text has: definitions, uses and calls, wherever they stand *)
Fixpoint occurrences (n : tree) : list (bytes * tok) :=
  match n with T k nm t _ _ _ kids =>
    match k with KFunction | KVarDecl | KConst | KStruct | KVar | KCall true => [(nm, t)] | _ => [] end ++ flat_map occurrences kids
  end.
(** trees the walk sees all of: nothing below what it does not enter; every name used has a token and
    the token of its definition *)
Fixpoint entered (n : tree) : bool :=
  match n with T k _ t d _ _ kids =>
    match k with
    | KFunction | KVarDecl | KConst => (1 <=? t_line t) && forallb entered kids
    | KStruct => (1 <=? t_line t) && match kids with [] => true | _ => false end
    | KVar => (1 <=? t_line t) && (1 <=? t_line d) && match kids with [] => true | _ => false end
    | KCall true => (1 <=? t_line t) && (1 <=? t_line d) && forallb entered kids
    | KCall false | KWalked => forallb entered kids
    | KEnum | KAlias | KTrait | KOpaque => match kids with [] => true | _ => false end
    end
  end.
(** the place of a token as an editor counts *)
Definition at_tok (r : range) (t : tok) : Prop := r_line r = t_line t - 1 /\ r_col r = t_col t - 1 /\ r_end r = t_col t - 1 + t_len t.
(** the uses of names, with the tokens of their definitions; and the tokens of the definitions *)
Fixpoint uses (n : tree) : list (bytes * tok * tok) :=
  match n with T k nm t d _ _ kids => match k with KVar | KCall true => [(nm, t, d)] | _ => [] end ++ flat_map uses kids end.
Fixpoint defs (n : tree) : list tok :=
  match n with T k _ t _ _ _ kids => match k with KFunction | KVarDecl | KConst | KStruct | KEnum | KAlias | KTrait => [t] | _ => [] end ++ flat_map defs kids end.
(** no place belongs to two ranges *)
Definition separate (idx : list range) : Prop := forall line col r1 r2,
  In r1 idx -> In r2 idx -> contains line col r1 = true -> contains line col r2 = true -> r1 = r2.
