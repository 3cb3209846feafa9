(** What the editor is told about a call and about a file. *)
From Verif Require Import Common Compl_Model Compl_Spec Help_Model.
Local Open Scope nat_scope.

(** The position, counted from 0, is behind [left] on the line behind [above] *)
Definition at_position (src : bytes) (line col : nat) (above left : bytes) : Prop :=
  exists right, src = above ++ left ++ right /\ (above = [] \/ exists a, above = a ++ [10%N]) /\ line = length (filter (N.eqb 10) above) /\ col = length left.
(** White space *)
Definition white (c : N) : bool := existsb (N.eqb c) [32; 9; 10; 11; 12; 13]%N.
(** The text ends in a call of the name, inside its parentheses, behind arguments without parentheses *)
Definition in_call (s name : bytes) : Prop :=
  exists pre gap args, s = pre ++ name ++ gap ++ bs "(" ++ args /\ name <> [] /\ Forall (fun c => letter c = true) name /\ Forall (fun c => white c = true) gap /\
    ~ In 40%N args /\ ~ In 41%N args /\ (pre = [] \/ exists q c, pre = q ++ [c] /\ letter c = false).
(** Texts with commas between them *)
Inductive commas : list bytes -> bytes -> Prop :=
| c_none : commas [] []
| c_one t : commas [t] t
| c_more t u l s : commas (u :: l) s -> commas (t :: u :: l) (t ++ bs ", " ++ s).
(** fn NAME(TYPE, TYPE) -> TYPE *)
Definition signature (name : bytes) (args : list bytes) (ret s : bytes) : Prop :=
  exists ps, commas args ps /\ s = bs "fn " ++ name ++ bs "(" ++ ps ++ bs ") -> " ++ ret.
(** A function with the texts of its types, and whose signature is short *)
Definition type_text (missing : bytes) (t : option bytes) (s : bytes) : Prop := t = Some s \/ (t = None /\ s = missing).
Definition known (f : sig) (args : list bytes) (ret : bytes) : Prop :=
  Forall2 (type_text (bs "unknown")) (s_args f) args /\ type_text (bs "void") (s_ret f) ret /\ length (s_name f) < 255 /\ list_sum (map (fun t => length t + 2) args) < 1024 /\ length ret < 512.

(** The text on the line behind the column, both from 0 *)
Definition stands (src : bytes) (line from till : nat) (name : bytes) : Prop :=
  exists above left right, src = above ++ left ++ name ++ right /\ (above = [] \/ exists a, above = a ++ [10%N]) /\ ~ In 10%N left /\
    line = length (filter (N.eqb 10) above) /\ from = length left /\ till = from + length name.
(** The token of a declaration, counted from 1, is its name *)
Definition at_name (src : bytes) (d : decl) : Prop :=
  match d with D _ (Some n) line col len _ => 1 <= line /\ 1 <= col /\ stands src (line - 1) (col - 1) (col - 1 + len) n | D _ None _ _ _ _ => True end.
(** One entry of the outline for one declaration: its name where it stands, and below a struct its fields *)
Inductive entry_for (src : bytes) : decl -> entry -> Prop :=
| e_plain w n l c len fs k li a b : In (w, k) [(WFun, 12); (WVar, 13); (WConst, 14); (WEnum, 10); (WField, 8)] -> stands src li a b n -> entry_for src (D w (Some n) l c len fs) (E n k li a b None)
| e_empty n l c len li a b : stands src li a b n -> entry_for src (D WStruct (Some n) l c len []) (E n 23 li a b None)
| e_struct n l c len f fs li a b es : stands src li a b n -> Forall2 (entry_for src) (f :: fs) es -> entry_for src (D WStruct (Some n) l c len (f :: fs)) (E n 23 li a b (Some es)).
Definition listed (d : decl) : bool := match d with D WOther _ _ _ _ _ | D _ None _ _ _ _ => false | _ => true end.
(** Every declaration of the file, and every field of its structs, stands at its token *)
Definition proper (src : bytes) (d : decl) : Prop :=
  match d with D _ _ _ _ _ fs => at_name src d /\ Forall (fun f => match f with D w (Some _) _ _ _ fs => w = WField /\ at_name src f /\ fs = [] | _ => False end) fs end.
