(** The expression grammar of Zen-C, as its documentation and its table of precedences
    give it, independently of the parser. *)
From Verif Require Import Common Pratt_Model.
Local Open Scope nat_scope.

(** Binary operators by level, loosest first; what each means as a tree.  The four
    operators that are also prefix operators must not start a line. *)
Inductive infix : nat -> tok -> (expr -> expr -> expr) -> Prop :=
| i_assign nl : infix 1 (TOp OAssign nl) (EBin BAssign)
| i_addeq nl : infix 1 (TOp OAddEq nl) (fun l r => EBin BAssign l (EBin BAdd l r))
| i_subeq nl : infix 1 (TOp OSubEq nl) (fun l r => EBin BAssign l (EBin BSub l r))
| i_muleq nl : infix 1 (TOp OMulEq nl) (fun l r => EBin BAssign l (EBin BMul l r))
| i_diveq nl : infix 1 (TOp ODivEq nl) (fun l r => EBin BAssign l (EBin BDiv l r))
| i_remeq nl : infix 1 (TOp ORemEq nl) (fun l r => EBin BAssign l (EBin BRem l r))
| i_oreq nl : infix 1 (TOp OOrEq nl) (fun l r => EBin BAssign l (EBin BOr l r))
| i_andeq nl : infix 1 (TOp OAndEq nl) (fun l r => EBin BAssign l (EBin BAnd l r))
| i_xoreq nl : infix 1 (TOp OXorEq nl) (fun l r => EBin BAssign l (EBin BXor l r))
| i_shleq nl : infix 1 (TOp OShlEq nl) (fun l r => EBin BAssign l (EBin BShl l r))
| i_shreq nl : infix 1 (TOp OShrEq nl) (fun l r => EBin BAssign l (EBin BShr l r))
| i_qqeq : infix 1 TQQEq (fun l r => EBin BAssign l (EBin BQQ l r))
| i_oror nl : infix 3 (TOp OOrOr nl) (EBin BOrOr)
| i_or : infix 3 TOr (EBin BOrOr)
| i_qq : infix 3 TQQ (EBin BQQ)
| i_andand nl : infix 4 (TOp OAndAnd nl) (EBin BAndAnd)
| i_and : infix 4 TAnd (EBin BAndAnd)
| i_eq nl : infix 5 (TOp OEq nl) (EBin BEq)
| i_ne nl : infix 5 (TOp ONe nl) (EBin BNe)
| i_lt : infix 6 TLangle (EBin BLt)
| i_gt : infix 6 TRangle (EBin BGt)
| i_le nl : infix 6 (TOp OLe nl) (EBin BLe)
| i_ge nl : infix 6 (TOp OGe nl) (EBin BGe)
| i_pipe : infix 7 TPipe (fun l r => match r with ECall f args => ECall f (l :: args) | _ => ECall r [l] end)
| i_bor nl : infix 7 (TOp OOr nl) (EBin BOr)
| i_bxor nl : infix 7 (TOp OXor nl) (EBin BXor)
| i_band : infix 7 (TOp OAnd false) (EBin BAnd)
| i_shl nl : infix 7 (TOp OShl nl) (EBin BShl)
| i_shr nl : infix 7 (TOp OShr nl) (EBin BShr)
| i_add : infix 7 (TOp OAdd false) (EBin BAdd)
| i_sub : infix 7 (TOp OSub false) (EBin BSub)
| i_mul : infix 8 (TOp OMul false) (EBin BMul)
| i_div nl : infix 8 (TOp ODiv nl) (EBin BDiv)
| i_rem nl : infix 8 (TOp ORem nl) (EBin BRem).

Inductive prefix : opk -> unop -> Prop :=
| p_neg : prefix OSub UNeg | p_not : prefix ONot UNot | p_deref : prefix OMul UDeref | p_addr : prefix OAnd UAddr
| p_tilde : prefix OTilde UTilde | p_addr2 : prefix OAndAnd UAddrAddr | p_inc : prefix OInc UInc | p_dec : prefix ODec UDec.

(** The tokens after which "?" is the conditional operator *)
Definition operand_start (ts : list tok) : Prop :=
  match ts with
  | TInt _ :: _ | TVar _ :: _ | TLparen :: _ => True
  | TOp o _ :: _ => In o [OSub; ONot; OMul; OAnd; OTilde]
  | _ => False
  end.
(** The tokens that make "(T)" a cast *)
Definition cast_operand_start (ts : list tok) : Prop :=
  match ts with
  | TInt _ :: _ | TVar _ :: _ | TLparen :: _ => True
  | TOp o _ :: _ => In o [ONot; OMul; OAnd]
  | _ => False
  end.
Definition ends_in_try (ts : list tok) : Prop := exists us, ts = us ++ [TQ].

(** [G p ts e]: the tokens [ts] are an expression of level [p] or tighter, with tree [e].
    Levels: 1 assignment, 2 conditional, 3 or, 4 and, 5 equality, 6 comparison, 7 sums,
    8 products, 9 prefix operators, 10 postfix operators, 11 atoms. *)
Inductive G : nat -> list tok -> expr -> Prop :=
| G_int n : G 11 [TInt n] (EInt n)
| G_var x : G 11 [TVar x] (EVar x)
| G_paren ts e : G 1 ts e -> (forall x, ts <> [TVar x]) -> G 11 (TLparen :: ts ++ [TRparen]) e
| G_call0 tf f : G 10 tf f -> ~ ends_in_try tf -> G 10 (tf ++ [TLparen; TRparen]) (ECall f [])
| G_call tf f ta args : G 10 tf f -> ~ ends_in_try tf -> GArgs ta args ->
    G 10 (tf ++ TLparen :: ta ++ [TRparen]) (ECall f args)
| G_index ta a ti i : G 10 ta a -> G 1 ti i -> G 10 (ta ++ TLbracket :: ti ++ [TRbracket]) (EIndex a i)
| G_member te e k f : G 10 te e -> (k = TQDot \/ exists nl, k = TOp ODot nl) ->
    ((exists x, f = TVar x) \/ exists n, f = TInt n) -> G 10 (te ++ [k; f]) (EMember k e f)
| G_try te e : G 10 te e -> G 10 (te ++ [TQ]) (ETry e)
| G_inc te e nl : G 10 te e -> G 10 (te ++ [TOp OInc nl]) (EPost true e)
| G_dec te e nl : G 10 te e -> G 10 (te ++ [TOp ODec nl]) (EPost false e)
| G_prefix o u nl te e : prefix o u -> G 9 te e -> G 9 (TOp o nl :: te) (EUn u e)
| G_cast x stars te e : G 9 te e -> cast_operand_start te ->
    G 9 (TLparen :: TVar x :: map (TOp OMul) stars ++ TRparen :: te) (ECast x (length stars) e)
| G_infix p t mk tl l tr r : infix p t mk -> G p tl l -> G (S p) tr r ->
    (ends_in_try tl -> ~ operand_start [t]) -> G p (tl ++ t :: tr) (mk l r)
| G_ternary tc c ta a tb b : G 3 tc c -> G 1 ta a -> operand_start ta -> G 2 tb b ->
    G 2 (tc ++ TQ :: ta ++ TColon :: tb) (ETern c a b)
| G_up p q ts e : p <= q -> G q ts e -> G p ts e
with GArgs : list tok -> list expr -> Prop :=
| GA_one ts e : G 1 ts e -> GArgs ts [e]
| GA_more ts e tr l : G 1 ts e -> GArgs tr l -> GArgs (ts ++ TComma :: tr) (e :: l).

(** What may follow the expression: nothing or a token that closes it *)
Definition closed (rest : list tok) : Prop :=
  match rest with
  | [] => True
  | t :: _ => In t [TSemi; TComma; TRparen; TRbracket; TRbrace; TColon]
  end.
(** The whole input has no arrow, and no "<" is followed by what reads as types and ">" *)
Definition plain (type_list : list tok -> bool) (ts : list tok) : Prop :=
  ~ In TArrow ts /\ ~ In TFatArrow ts /\ (forall a b, ts = a ++ TLangle :: b -> type_list b = false).

(** * Writing a tree with as few parentheses as the grammar allows *)
Definition paren (ts : list tok) : list tok := TLparen :: ts ++ [TRparen].
Definition bin_token (o : binop) : nat * tok :=
  match o with
  | BAssign => (1, TOp OAssign false)
  | BOrOr => (3, TOp OOrOr false) | BQQ => (3, TQQ) | BAndAnd => (4, TOp OAndAnd false)
  | BEq => (5, TOp OEq false) | BNe => (5, TOp ONe false)
  | BLe => (6, TOp OLe false) | BGe => (6, TOp OGe false) | BLt => (6, TLangle) | BGt => (6, TRangle)
  | BOr => (7, TOp OOr false) | BXor => (7, TOp OXor false) | BAnd => (7, TOp OAnd false)
  | BShl => (7, TOp OShl false) | BShr => (7, TOp OShr false) | BAdd => (7, TOp OAdd false) | BSub => (7, TOp OSub false)
  | BMul => (8, TOp OMul false) | BDiv => (8, TOp ODiv false) | BRem => (8, TOp ORem false)
  end.
Definition un_token (u : unop) : tok :=
  TOp (match u with UNeg => OSub | UNot => ONot | UDeref => OMul | UAddr => OAnd | UTilde => OTilde
       | UAddrAddr => OAndAnd | UInc => OInc | UDec => ODec end) false.
Definition ends_tryb (ts : list tok) : bool := match rev ts with TQ :: _ => true | _ => false end.
Definition operand_startb (ts : list tok) : bool :=
  match ts with
  | TInt _ :: _ | TVar _ :: _ | TLparen :: _ => true
  | TOp o _ :: _ => match o with OSub | ONot | OMul | OAnd | OTilde => true | _ => false end
  | _ => false
  end.
Definition cast_startb (ts : list tok) : bool :=
  match ts with
  | TInt _ :: _ | TVar _ :: _ | TLparen :: _ => true
  | TOp o _ :: _ => match o with ONot | OMul | OAnd => true | _ => false end
  | _ => false
  end.
(** Around a subtree of level [q] where level [p] is needed *)
Definition fit (p : nat) (s : nat * list tok) : list tok := if p <=? fst s then snd s else paren (snd s).
Fixpoint join (l : list (list tok)) : list tok :=
  match l with [] => [] | [t] => t | t :: r => t ++ TComma :: join r end.
(** The level and the tokens of a tree *)
Fixpoint show (e : expr) : nat * list tok :=
  match e with
  | EInt n => (11, [TInt n])
  | EVar x => (11, [TVar x])
  | EUn u e => (9, un_token u :: fit 9 (show e))
  | EPost i e => (10, fit 10 (show e) ++ [TOp (if i then OInc else ODec) false])
  | ECast x k e =>
    let t := fit 9 (show e) in
    (9, TLparen :: TVar x :: repeat (TOp OMul false) k ++ TRparen :: (if cast_startb t then t else paren t))
  | EBin o l r =>
    let (p, t) := bin_token o in
    let tl := fit p (show l) in
    (p, (if ends_tryb tl && operand_startb [t] then paren tl else tl) ++ t :: fit (S p) (show r))
  | ETern c a b =>
    let ta := snd (show a) in
    (2, fit 3 (show c) ++ TQ :: (if operand_startb ta then ta else paren ta) ++ TColon :: fit 2 (show b))
  | ETry e => (10, fit 10 (show e) ++ [TQ])
  | ECall f args =>
    let tf := fit 10 (show f) in
    (10, (if ends_tryb tf then paren tf else tf) ++ TLparen :: join (map (fun a => snd (show a)) args) ++ [TRparen])
  | EIndex a i => (10, fit 10 (show a) ++ TLbracket :: snd (show i) ++ [TRbracket])
  | EMember k e f => (10, fit 10 (show e) ++ [k; f])
  end.

(** The trees of the fragment: member accesses are "." or "?." with a name or number *)
Inductive in_fragment : expr -> Prop :=
| F_int n : in_fragment (EInt n)
| F_var x : in_fragment (EVar x)
| F_un u e : in_fragment e -> in_fragment (EUn u e)
| F_post i e : in_fragment e -> in_fragment (EPost i e)
| F_cast x k e : in_fragment e -> in_fragment (ECast x k e)
| F_bin o l r : in_fragment l -> in_fragment r -> in_fragment (EBin o l r)
| F_tern c a b : in_fragment c -> in_fragment a -> in_fragment b -> in_fragment (ETern c a b)
| F_try e : in_fragment e -> in_fragment (ETry e)
| F_call f l : in_fragment f -> Forall in_fragment l -> in_fragment (ECall f l)
| F_index a i : in_fragment a -> in_fragment i -> in_fragment (EIndex a i)
| F_member k e f : in_fragment e -> (k = TQDot \/ exists nl, k = TOp ODot nl) ->
    ((exists x, f = TVar x) \/ exists n, f = TInt n) -> in_fragment (EMember k e f).
