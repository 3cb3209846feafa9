(** What @cfg means, and what the C preprocessor does. *)
From Verif Require Import Common Cfg_Model.

(** Attributes as a user writes them *)
Inductive lit := Has (n : bytes) | Not (n : bytes).
Inductive clause := One (l : lit) | Any (ls : list lit) | All (ls : list lit).
Definition lit_true (env : bytes -> bool) (l : lit) : bool := match l with Has n => env n | Not n => negb (env n) end.
Definition clause_true (env : bytes -> bool) (c : clause) : bool :=
  match c with One l => lit_true env l | Any ls => existsb (lit_true env) ls | All ls => forallb (lit_true env) ls end.

Definition show_lit (l : lit) : list ztok := match l with Has n => [ZId n] | Not n => [ZId (bs "not"); ZLp; ZId n; ZRp] end.
Fixpoint show_lits (ls : list lit) : list ztok :=
  match ls with [] => [] | [l] => show_lit l | l :: r => show_lit l ++ ZComma :: show_lits r end.
Definition show_clause (c : clause) : list ztok :=
  [ZAt; ZId (bs "cfg"); ZLp] ++
  match c with
  | One l => show_lit l
  | Any ls => ZId (bs "any") :: ZLp :: show_lits ls ++ [ZRp]
  | All ls => ZId (bs "all") :: ZLp :: show_lits ls ++ [ZRp]
  end ++ [ZRp].
Definition show_clauses (cs : list clause) : list ztok := concat (map show_clause cs).

(** The value of a #if condition (C 6.10.1 and the precedence of 6.5): [unary] is level 0, [&&]
    level 1, [||] level 2. *)
Fixpoint peval (env : bytes -> bool) (fuel level : nat) (ts : list ptok) : option (bool * list ptok) :=
  match fuel with
  | O => None
  | S fuel =>
    match level with
    | O =>
      match ts with
      | Tdef n :: r => Some (env n, r)
      | Tbang :: r => match peval env fuel 0 r with Some (v, r') => Some (negb v, r') | None => None end
      | Tlp :: r => match peval env fuel 2 r with Some (v, Trp :: r') => Some (v, r') | _ => None end
      | _ => None
      end
    | S O =>
      match peval env fuel 0 ts with
      | Some (v, Tand :: r) => match peval env fuel 1 r with Some (w, r') => Some (v && w, r') | None => None end
      | x => x
      end
    | _ =>
      match peval env fuel 1 ts with
      | Some (v, Tor :: r) => match peval env fuel 2 r with Some (w, r') => Some (v || w, r') | None => None end
      | x => x
      end
    end
  end.
Definition if_value (env : bytes -> bool) (ts : list ptok) : option bool :=
  match peval env (4 * length ts + 4) 2 ts with Some (v, []) => Some v | _ => None end.

(** The preprocessor over lines: [stack] says of each open #if whether its lines are kept.
    An #if left open at the end of the file is an error. *)
Fixpoint cpp (env : bytes -> bool) (stack : list bool) (l : list line) : option (list line) :=
  match l with
  | [] => match stack with [] => Some [] | _ => None end
  | LIf c :: r =>
    if forallb (fun b => b) stack
    then match if_value env c with Some v => cpp env (v :: stack) r | None => None end
    else cpp env (false :: stack) r
  | LEndif :: r => match stack with _ :: s => cpp env s r | [] => None end
  | x :: r =>
    match cpp env stack r with
    | Some o => Some (if forallb (fun b => b) stack then x :: o else o)
    | None => None
    end
  end.

(** The program the user means: the declarations whose condition holds *)
Definition keep (env : bytes -> bool) (i : item) : bool :=
  match icond i with None => true | Some c => match if_value env c with Some v => v | None => false end end.
Definition selected (env : bytes -> bool) (l : list item) : list item :=
  map (fun i => mkitem (ikind i) (iname i) None) (filter (keep env) l).

(** Declarations as written: attributes, kind and name.  [chosen]: the program the user means. *)
Record decl := mkdecl { dcfg : list clause; dkind : kind; dname : bytes }.
Definition chosen (env : bytes -> bool) (ds : list decl) : list item :=
  map (fun d => mkitem (dkind d) (dname d) None) (filter (fun d => forallb (clause_true env) (dcfg d)) ds).
(** [i] is what the parser makes of [d] when it is followed by the tokens of its declaration. *)
Definition parsed (d : decl) (i : item) : Prop :=
  ikind i = dkind d /\ iname i = dname d /\
  exists fuel, attrs fuel None (show_clauses (dcfg d) ++ [ZOther]) = Ok (icond i, [ZOther]).

(** Attributes the parser accepts: inside any and all only not(NAME) *)
Definition only_not (ls : list lit) : Prop := Forall (fun l => exists n, l = Not n) ls.
Definition writable (c : clause) : Prop :=
  match c with
  | One (Has n) => n <> bs "not" /\ n <> bs "any" /\ n <> bs "all"
  | One (Not _) => True
  | Any ls | All ls => ls <> [] /\ only_not ls
  end.
(** The attributes are over. *)
Definition starts_item (r : list ztok) : Prop := match r with ZAt :: _ => False | _ => True end.
