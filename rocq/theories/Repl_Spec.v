(** What a REPL session should do, in terms of the lines that were entered. *)
From Verif Require Import Common.

Definition blank (c : N) : Prop := c = 32%N \/ c = 9%N.
Definition count (c : N) (l : bytes) : Z := Z.of_nat (count_occ N.eq_dec l c).
(** braces opened and not closed *)
Definition net (l : bytes) : Z := (count 123 l - count 125 l)%Z.
Definition nets (ls : list bytes) : Z := fold_right (fun l z => (net l + z)%Z) 0%Z ls.

(** a declaration: the line starts with one of these words *)
Definition declares (l : bytes) : Prop :=
  exists u w r, l = u ++ w ++ r /\ Forall blank u /\
    In w (map bs ["struct"; "impl"; "fn"; "use"; "include"; "typedef"; "enum"; "const"; "def"; "#include"; "import"]%string).

(** the lines of one declaration or statement: the braces are closed at the end and not before *)
Definition block (b : list bytes) : Prop :=
  b <> [] /\ nets b = 0%Z /\ forall p q, b = p ++ q -> p <> [] -> q <> [] -> nets p <> 0%Z.

(** the blocks that are declarations, a line each, and the statements, on one line *)
Inductive parts : list (list bytes) -> bytes -> bytes -> Prop :=
| parts_nil : parts [] [] []
| parts_decl l b r g m : declares l -> parts r g m ->
    parts ((l :: b) :: r) (flat_map (fun l => l ++ [10%N]) (l :: b) ++ g) m
| parts_stmt l b r g m : ~ declares l -> parts r g m ->
    parts ((l :: b) :: r) g (flat_map (fun l => l ++ [32%N]) (l :: b) ++ m).

(** the line without its quoted parts and without escaped characters *)
Fixpoint unquoted (l : bytes) (esc quote : bool) : bytes :=
  match l with
  | [] => []
  | c :: r =>
      if esc then unquoted r false quote
      else if (c =? 92)%N then unquoted r true quote
      else if (c =? 34)%N then unquoted r false (negb quote)
      else if quote then unquoted r false quote
      else c :: unquoted r false quote
  end.
Definition open_braces (l : bytes) : Z := net (unquoted l false false).
Definition open_parens (l : bytes) : Z := (count 40 (unquoted l false false) - count 41 (unquoted l false false))%Z.
(** nothing is left open *)
Definition closed (l : bytes) : Prop := (open_braces l <= 0)%Z /\ (open_parens l <= 0)%Z.

(** not a command of the REPL *)
Definition plain (t : bytes) : Prop :=
  (exists c r, t = c :: r /\ c <> 33%N /\ c <> 58%N) /\
  ~ (exists sp, Forall blank sp /\ (t = bs "exit" ++ sp \/ t = bs "quit" ++ sp)).

(** the last [n] entries *)
Definition last_n {A} (n : nat) (l : list A) : list A := skipn (length l - n) l.
(** a line of a text file that fits in the buffer of the reader *)
Definition text_line (l : bytes) : Prop :=
  Forall (fun c => c <> 10%N /\ c <> 0%N) l /\ length l <= 1022.
Definition as_file (ls : list bytes) : bytes := flat_map (fun l => l ++ [10%N]) ls.

Definition not_empty (l : bytes) : bool := match l with [] => false | _ => true end.

Definition digit (c : N) : Prop := (48 <= c <= 57)%N.
Definition value (d : bytes) : Z := fold_left (fun v c => (10 * v + (Z.of_N c - 48))%Z) d 0%Z.
