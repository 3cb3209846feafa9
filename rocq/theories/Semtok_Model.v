(** Model of the semantic tokens of the language server: src/lsp/lsp_semantic.c:9-360 (the walk
    over the syntax tree, the sorting, the relative encoding).

    A null pointer is [NNull]; a list of nodes linked by next is a list.  What qsort gives is not
    fixed by C when elements compare equal: it is any sorted rearrangement ([qsorted]).
    Simplifications: memory suffices and the number of tokens fits an int, so the array of tokens
    is a list; the numbers go through cJSON unchanged; attributes (93-101, a loop without effect)
    are left out. *)
From Verif Require Import Common.
From Coq Require Export Sorting.Permutation Sorting.Sorted.
Local Open Scope Z_scope.

(** zprep.h Token: TOK_EOF or not, line and column from 1, length *)
Record token := Token { t_eof : bool; t_line : Z; t_col : Z; t_len : Z }.
(** lsp_semantic.c:23-30 *)
Record sem := Sem { s_line : Z; s_col : Z; s_len : Z; s_type : Z; s_mods : Z }.

Inductive literal := LString | LInt | LFloat | LChar | LOtherLit.
Inductive node :=
| NNull
| NFunction (t : token) (body : node)
| NVarDecl (t : token) (init : node)
| NBlock (stmts : list node)
| NReturn (v : node)
| NBinary (l r : node)
| NCall (callee : node) (args : list node)
| NConst (t : token) (init : node)
| NAlias (t : token)
| NVar (t : token)
| NStruct (t : token) (fields : list node)
| NField (t : token)
| NMember (target : node) (t : token)
| NLiteral (t : token) (k : literal)
| NTrait (t : token) (methods : list node)
| NImpl (t : token) (methods : list node)
| NImplTrait (t : token) (methods : list node)
| NEnum (t : token) (variants : list node)
| NVariant (t : token)
| NDestruct (init els : node)
| NMatchCase (guard body : node)
| NLambda (body : node)
| NForRange (start stop body : node)
| NRoot (children : list node)
| NOther (kids : list node).        (* if, while, match, loops over iterators, unary, index, ... *)

(** builder_push, 45-63 *)
Definition push (line col len type mods : Z) : list sem :=
  if (line <? 0) || (col <? 0) then [] else [Sem line col len type mods].
Definition push_token (t : token) (type mods : Z) : list sem :=
  if t_eof t then [] else push (t_line t - 1) (t_col t - 1) (t_len t) type mods.

(** traverse_node, 83-304: the tokens in the order they are pushed.  A list is walked in blocks
    and calls; of every other list the first node is visited. *)
Fixpoint traverse (n : node) : list sem :=
  match n with
  | NNull => []
  | NFunction t body => push_token t 1 1 ++ traverse body
  | NVarDecl t init => push_token t 0 0 ++ traverse init
  | NBlock stmts => flat_map traverse stmts
  | NReturn v => traverse v
  | NBinary l r => traverse l ++ traverse r
  | NCall callee args => traverse callee ++ flat_map traverse args
  | NConst t init => push_token t 0 2 ++ traverse init
  | NAlias t => push_token t 7 0
  | NVar t => push_token t 0 0
  | NStruct t fields => push_token t 2 0 ++ match fields with [] => [] | f :: _ => traverse f end
  | NField t => push_token t 9 0
  | NMember target t => traverse target ++ push_token t 9 0
  | NLiteral t k => match k with LString | LChar => push_token t 4 0 | LInt | LFloat => push_token t 5 0 | LOtherLit => [] end
  | NTrait t methods => push_token t 2 0 ++ match methods with [] => [] | f :: _ => traverse f end
  | NImpl t methods => push_token t 2 0 ++ match methods with [] => [] | f :: _ => traverse f end
  | NImplTrait t methods => push_token t 2 0 ++ match methods with [] => [] | f :: _ => traverse f end
  | NEnum t variants => push_token t 8 0 ++ match variants with [] => [] | f :: _ => traverse f end
  | NVariant t => push_token t 8 0
  | NDestruct init els => traverse init ++ traverse els
  | NMatchCase guard body => traverse guard ++ traverse body
  | NLambda body => traverse body
  | NForRange a b body => traverse a ++ traverse b ++ traverse body
  | NRoot children => match children with [] => [] | c :: _ => traverse c end
  | NOther _ => []
  end.

(** compare_tokens, 71-80: the difference of the lines, else of the columns *)
Definition compare_tokens (a b : sem) : Z :=
  if s_line a =? s_line b then s_col a - s_col b else s_line a - s_line b.
(** qsort, 324: any rearrangement in which no element compares greater than a later one *)
Definition qsorted (l s : list sem) : Prop :=
  Permutation l s /\ StronglySorted (fun a b => compare_tokens a b <= 0) s.

(** 329-350: five numbers for each token; [last] is the token before in the array *)
Fixpoint encode (last : option sem) (prev_line prev_col : Z) (s : list sem) : list Z :=
  match s with
  | [] => []
  | t :: r =>
    if match last with Some p => (s_line t =? s_line p) && (s_col t =? s_col p) | None => false end
    then encode (Some t) prev_line prev_col r
    else
      let dl := s_line t - prev_line in
      let dc := if dl =? 0 then s_col t - prev_col else s_col t in
      [dl; dc; s_len t; s_type t; s_mods t] ++ encode (Some t) (s_line t) (s_col t) r
  end.
(** lsp_semantic_tokens_full, 305-360; the tree is what lsp_project.c:172-178 stores: a root.
    [data] is an answer the server may give. *)
Definition answers (root : node) (data : list Z) : Prop :=
  exists s, qsorted (traverse root) s /\ data = encode None 0 0 s.
