(** What an editor reads from the answer (Language Server Protocol, semantic tokens), and the
    names it should show. *)
From Verif Require Import Common Semtok_Model.
Local Open Scope Z_scope.

(** groups of five unsigned numbers; lines relative to the token before, columns too when on the
    same line *)
Fixpoint decode_from (line col : Z) (data : list Z) : option (list sem) :=
  match data with
  | [] => Some []
  | dl :: dc :: len :: ty :: md :: r =>
    if (dl <? 0) || (dc <? 0) || (len <? 0) || (ty <? 0) || (md <? 0) then None
    else let l := line + dl in let c := if dl =? 0 then col + dc else dc in
         match decode_from l c r with Some ts => Some (Sem l c len ty md :: ts) | None => None end
  | _ => None
  end.
Definition decode (data : list Z) : option (list sem) := decode_from 0 0 data.

Definition pos (s : sem) : Z * Z := (s_line s, s_col s).
Definition before (a b : sem) : Prop := s_line a < s_line b \/ (s_line a = s_line b /\ s_col a < s_col b).

(** every token of the tree: what should be shown *)
Fixpoint all (n : node) : list sem :=
  match n with
  | NNull => []
  | NFunction t body => push_token t 1 1 ++ all body
  | NVarDecl t init => push_token t 0 0 ++ all init
  | NBlock stmts => flat_map all stmts
  | NReturn v => all v
  | NBinary l r => all l ++ all r
  | NCall callee args => all callee ++ flat_map all args
  | NConst t init => push_token t 0 2 ++ all init
  | NAlias t => push_token t 7 0
  | NVar t => push_token t 0 0
  | NStruct t fields => push_token t 2 0 ++ flat_map all fields
  | NField t => push_token t 9 0
  | NMember target t => all target ++ push_token t 9 0
  | NLiteral t k => match k with LString | LChar => push_token t 4 0 | LInt | LFloat => push_token t 5 0 | LOtherLit => [] end
  | NTrait t methods => push_token t 2 0 ++ flat_map all methods
  | NImpl t methods => push_token t 2 0 ++ flat_map all methods
  | NImplTrait t methods => push_token t 2 0 ++ flat_map all methods
  | NEnum t variants => push_token t 8 0 ++ flat_map all variants
  | NVariant t => push_token t 8 0
  | NDestruct init els => all init ++ all els
  | NMatchCase guard body => all guard ++ all body
  | NLambda body => all body
  | NForRange a b body => all a ++ all b ++ all body
  | NRoot children => flat_map all children
  | NOther kids => flat_map all kids
  end.

(** trees in which the lists that are not walked have one element at most *)
Definition at_most_one {A} (l : list A) : bool := match l with [] | [_] => true | _ => false end.
Fixpoint covered (n : node) : bool :=
  match n with
  | NNull | NAlias _ | NVar _ | NField _ | NLiteral _ _ | NVariant _ => true
  | NFunction _ b | NVarDecl _ b | NConst _ b | NReturn b | NLambda b | NMember b _ => covered b
  | NBlock l => forallb covered l
  | NBinary a b | NDestruct a b | NMatchCase a b => covered a && covered b
  | NForRange a b c => covered a && covered b && covered c
  | NCall c l => covered c && forallb covered l
  | NStruct _ l | NTrait _ l | NImpl _ l | NImplTrait _ l | NEnum _ l | NRoot l => at_most_one l && forallb covered l
  | NOther l => at_most_one l && match l with [] => true | _ => false end
  end.
(** every token of the tree has a length (the lexer's tokens have) *)
Definition lengths_ok (l : list sem) : Prop := forall s, In s l -> 0 <= s_len s.
