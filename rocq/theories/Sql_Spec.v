(** What a block of sql means, without the plugin. *)
From Verif Require Import Common.
From Verif Require Import Sql_Model.
Local Open Scope nat_scope.

(** * The statements *)
Inductive ctype := Text | String | Int | Integer.
Inductive stmt :=
| Create (t : bytes) (cols : list (bytes * ctype))
| Insert (t : bytes) (vs : list bytes)                  (* the texts of the values *)
| Select (t : bytes).

(** * The text: keywords in capitals or not, blanks and comments between the words *)
Definition blank (c : N) : Prop := c = 32%N \/ (9 <= c <= 13)%N.
Inductive filler : bytes -> Prop :=
| filler_nil : filler []
| filler_blank c g : blank c -> filler g -> filler (c :: g)
| filler_line b g : ~ In 10%N b -> filler g -> filler (bs "//" ++ b ++ [10%N] ++ g)
| filler_comment b g : (forall x y, b <> x ++ bs "*/" ++ y) -> filler g -> filler (bs "/*" ++ b ++ bs "*/" ++ g).
Definition capital (c : N) : Prop := (65 <= c <= 90)%N.
(** the same letters, in capitals or not *)
Definition same_letters (a b : bytes) : Prop := Forall2 (fun x y => x = y \/ (capital y /\ x = y + 32)%N) a b.
Definition type_word (ty : ctype) : bytes := match ty with Text => bs "TEXT" | String => bs "STRING" | Int => bs "INT" | Integer => bs "INTEGER" end.
Definition is_string (ty : ctype) : bool := match ty with Text | String => true | Int | Integer => false end.
Section Text.
Variables (gap gap0 : bytes) (kw : bytes -> bytes).
Fixpoint separated (l : list bytes) : bytes := match l with [] => [] | [a] => a | a :: l => a ++ bs "," ++ gap0 ++ separated l end.
Definition in_quotes (v : bytes) : bool := match v with c :: _ => (c =? 34)%N | [] => false end.
Definition value_text (v : bytes) : bytes := if in_quotes v then v ++ gap0 else v.
Definition written (s : stmt) : bytes :=
  match s with
  | Create t cols => kw (bs "CREATE") ++ gap ++ kw (bs "TABLE") ++ gap ++ t ++ gap0 ++ bs "(" ++ gap0 ++
                     separated (map (fun '(n, ty) => n ++ gap ++ kw (type_word ty) ++ gap0) cols) ++ bs ")" ++ gap0 ++ bs ";"
  | Insert t vs => kw (bs "INSERT") ++ gap ++ kw (bs "INTO") ++ gap ++ t ++ gap ++ kw (bs "VALUES") ++ gap0 ++ bs "(" ++ gap0 ++
                   separated (map value_text vs) ++ bs ")" ++ gap0 ++ bs ";"
  | Select t => kw (bs "SELECT") ++ gap ++ bs "*" ++ gap ++ kw (bs "FROM") ++ gap ++ t ++ gap0 ++ bs ";"
  end.
Definition text (l : list stmt) : bytes := gap0 ++ flat_map (fun s => written s ++ gap0) l.
Definition layout : Prop := gap <> [] /\ filler gap /\ filler gap0 /\ forall k, same_letters (kw k) k.
End Text.

Definition name_char (c : N) : Prop := (48 <= c <= 57 \/ 65 <= c <= 90 \/ 97 <= c <= 122 \/ c = 95)%N.
Definition name (most : nat) (x : bytes) : Prop := x <> [] /\ Forall name_char x /\ length x <= most.
(** A value: a string without quotes and backslashes in it, or an expression without commas and parentheses that close *)
Definition value (v : bytes) : Prop :=
  (exists s, v = bs """" ++ s ++ bs """" /\ Forall (fun c => c <> 34 /\ c <> 92)%N s) \/
  match v with c :: _ => ~ blank c /\ c <> 34%N /\ c <> 47%N | [] => False end /\ Forall (fun c => c <> 44 /\ c <> 41)%N v.
Definition good (s : stmt) : Prop :=
  match s with
  | Create t cols => name 63 t /\ cols <> [] /\ NoDup (map fst cols) /\ Forall (fun c => name 31 (fst c)) cols
  | Insert t vs => name 63 t /\ vs <> [] /\ Forall value vs
  | Select t => name 63 t
  end.

(** * The tables
    The columns with whether they are strings, and the rows in the order they were put in.  A table has 128 rows: what
    is put in behind them is lost. *)
Definition table : Type := list (bytes * bool) * list (list cell).
Definition database : Type := list (bytes * table).
Fixpoint lookup (t : bytes) (db : database) : option table :=
  match db with [] => None | (u, x) :: db => if list_eq_dec N.eq_dec u t then Some x else lookup t db end.
Fixpoint update (t : bytes) (x : table) (db : database) : database :=
  match db with [] => [] | (u, y) :: db => if list_eq_dec N.eq_dec u t then (u, x) :: db else (u, y) :: update t x db end.
Section Meaning.
Variable ev : bytes -> option cell.
Variable dec : Z -> bytes.
Definition cell_of (text : bool) (v : bytes) : option cell :=
  match ev v, text with Some (Str s), true => Some (Str s) | Some (Num z), false => Some (Num z) | _, _ => None end.
Fixpoint cells (cols : list (bytes * bool)) (vs : list bytes) : option (list cell) :=
  match cols, vs with
  | [], [] => Some []
  | (_, t) :: cols, v :: vs => match cell_of t v, cells cols vs with Some c, Some l => Some (c :: l) | _, _ => None end
  | _, _ => None
  end.
Definition cell_text (c : cell) : bytes := match c with Num z => dec z | Str s => s | Null => [] end.
Fixpoint row_text (l : list cell) : bytes := match l with [] => [10%N] | [c] => cell_text c ++ [10%N] | c :: l => cell_text c ++ bs " " ++ row_text l end.
Definition add_row (l : list (list cell)) (r : list cell) : list (list cell) := if Nat.ltb (length l) 128 then l ++ [r] else l.
(** None: an error; else the tables and what was printed *)
Fixpoint meaning (db : database) (l : list stmt) : option (database * bytes) :=
  match l with
  | [] => Some (db, [])
  | Create t cols :: l =>
    match lookup t db with
    | Some _ => None
    | None => meaning ((t, (map (fun '(n, ty) => (n, is_string ty)) cols, [])) :: db) l
    end
  | Insert t vs :: l =>
    match lookup t db with
    | Some (cols, rows) => match cells cols vs with Some r => meaning (update t (cols, add_row rows r) db) l | None => None end
    | None => None
    end
  | Select t :: l =>
    match lookup t db with
    | Some (_, rows) => match meaning db l with Some (db, o) => Some (db, concat (map row_text rows) ++ o) | None => None end
    | None => None
    end
  end.
End Meaning.
