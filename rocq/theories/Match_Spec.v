(** match: the first arm with a pattern that fits and a guard that holds is run. *)
From Verif Require Import Common IntLit_Spec Match_Model.
Local Open Scope N_scope.

(** Patterns as users write them *)
Inductive atom := Num (lit : bytes) | Chr (c : N).
Inductive pat :=
| PAtom (a : atom)
| PRange (a : atom) (incl : bool) (b : atom)
| PStr (s : bytes)
| PVariant (ty var : bytes).
(** An arm: _ or alternatives; and a guard *)
Record uarm := mkuarm { pats : option (list pat); cond_if : option bool }.

(** What is matched *)
Inductive subject := SInt (z : Z) | SStr (s : bytes) | SEnum (ty var : bytes).

Definition means (a : atom) (z : Z) : Prop :=
  match a with
  | Num lit => exists n, denotes lit n /\ z = Z.of_N n
  | Chr c => z = Z.of_N c
  end.
Definition fits (s : subject) (p : pat) : Prop :=
  match s, p with
  | SInt z, PAtom a => means a z
  | SInt z, PRange a incl b => exists x y, means a x /\ means b y /\ (x <= z)%Z /\ (if incl then z <= y else z < y)%Z
  | SStr s, PStr s' => s = s'
  | SEnum t v, PVariant t' v' => t = t' /\ v = v'
  | _, _ => False
  end.
Definition takes (s : subject) (a : uarm) : Prop :=
  match pats a with None => True | Some l => exists p, In p l /\ fits s p end /\ cond_if a <> Some false.
(** [first s arms r]: r is the number of the first arm that takes s *)
Definition first (s : subject) (arms : list uarm) (r : option nat) : Prop :=
  match r with
  | Some i => (exists a, nth_error arms i = Some a /\ takes s a) /\
              forall j a, (j < i)%nat -> nth_error arms j = Some a -> ~ takes s a
  | None => forall a, In a arms -> ~ takes s a
  end.

(** The tokens of a pattern *)
Definition atom_text (a : atom) : bytes := match a with Num lit => lit | Chr c => [39; c; 39] end.
Definition pat_alt (p : pat) : alt :=
  match p with
  | PAtom a => mkalt [atom_text a] None
  | PRange a incl b => mkalt [atom_text a] (Some (incl, atom_text b))
  | PStr s => mkalt [34 :: s ++ [34]] None
  | PVariant t v => mkalt [t; v] None
  end.
Definition as_arm (a : uarm) : arm :=
  mkarm (match pats a with None => [mkalt [bs "_"] None] | Some l => map pat_alt l end) (cond_if a).

(** The enums of the program: names and variants; a variant's tag is its position. *)
Fixpoint position (v : bytes) (vs : list bytes) : option Z :=
  match vs with
  | [] => None
  | w :: vs => if beq_bytes v w then Some 0%Z else option_map (Z.add 1) (position v vs)
  end.
Definition represents (enums : list (bytes * list bytes)) (s : subject) (tname : bytes) (v : value) : Prop :=
  match s, v with
  | SInt z, VInt z' => z = z' /\ tname = bs "int"
  | SStr s, VStr s' => s = s' /\ tname = bs "string"
  | SEnum t x, VEnum k => tname = t /\ exists vs, In (t, vs) enums /\ position x vs = Some k
  | _, _ => False
  end.

(** ** The limits of what is proved *)
(** Numbers: decimal without leading zeros, hexadecimal or binary, without suffix, below
    2^63; characters: single bytes below 128 other than the bar, quote and backslash *)
Definition plain_atom (a : atom) : Prop :=
  match a with
  | Num lit => exists n, n < 2 ^ 63 /\
      ((exists c ds, lit = c :: ds /\ numeral 10 lit n /\ (ds <> [] -> c <> 48)) \/
       (exists p ds, lit = p ++ ds /\ In p [bs "0x"; bs "0X"] /\ numeral 16 ds n) \/
       (exists p ds, lit = p ++ ds /\ In p [bs "0b"; bs "0B"] /\ numeral 2 ds n))
  | Chr c => c < 128 /\ ~ In c [39; 92; 124]
  end.
Definition ident (b : bytes) : Prop :=
  match b with
  | c :: _ => Lexer_Model.is_ident_start c = true /\ Forall (fun c => Lexer_Model.is_ident_char c = true) b
  | [] => False
  end.
(** Strings: no bar, quote, backslash, newline or two dots in a row *)
Definition plain_str (s : bytes) : Prop :=
  Forall (fun c => ~ In c [34; 92; 10; 124; 0]) s /\ forall a b, s <> a ++ bs ".." ++ b.
Definition plain_pat (enums : list (bytes * list bytes)) (s : subject) (p : pat) : Prop :=
  match s, p with
  | SInt _, PAtom a => plain_atom a
  | SInt _, PRange a _ b => plain_atom a /\ plain_atom b
  | SStr _, PStr s => plain_str s
  | SEnum t _, PVariant t' v => t' = t /\ exists vs, In (t, vs) enums /\ In v vs
  | _, _ => False
  end.
Definition plain_arm (enums : list (bytes * list bytes)) (s : subject) (a : uarm) : Prop :=
  cond_if a = None /\
  match pats a with
  | None => True
  | Some l => l <> [] /\ Forall (plain_pat enums s) l /\
      (N.of_nat (length (join (bs "|") (map (fun p => alt_text (pat_alt p)) l))) < 1024)
  end.
(** Names are identifiers; Type_Variant is unique; and the matched type's name does not
    start with Option_ or Result_ *)
Definition plain_enums (enums : list (bytes * list bytes)) : Prop :=
  Forall (fun e => ident (fst e) /\ Forall ident (snd e)) enums /\ NoDup (map fst enums) /\
  NoDup (concat (map (fun e => map (fun v => fst e ++ bs "_" ++ v) (snd e)) enums)).
Definition plain_type (t : bytes) : Prop :=
  (forall r, t <> bs "Option_" ++ r) /\ (forall r, t <> bs "Result_" ++ r).
