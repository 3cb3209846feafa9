(** What a user sees of an error or a warning, without diagnostics.c. *)
From Verif Require Import Common Io_Model Diag_Model.
Local Open Scope nat_scope.

(** The text on the terminal: without the sequences from escape to m that set colours *)
Fixpoint seen (inside : bool) (p : bytes) : bytes :=
  match p with
  | [] => []
  | c :: r => if inside then seen (negb (c =? 109)%N) r else if (c =? 27)%N then seen true r else c :: seen false r
  end.
Definition visible (p : bytes) : bytes := seen false p.
Definition plain (s : bytes) : Prop := Forall (fun c => c <> 27%N) s.
Definition lines (s : bytes) : nat := length (filter (N.eqb 10) s).
Definition number (n : nat) : bytes := dec_int (Z.of_nat n).
Definition end_of_line : bytes := [10%N].
Definition spaces (n : nat) : bytes := repeat 32%N n.

(** The token stands in the source on the line [left ++ rest], in front of [rest] *)
Definition stands (src : bytes) (t : token) (above left rest below : bytes) : Prop :=
  src = above ++ left ++ rest ++ below /\ (above = [] \/ exists a, above = a ++ [10%N]) /\ ~ In 10%N left /\ ~ In 10%N rest /\
  (below = [] \/ exists b, below = 10%N :: b) /\
  start t = Some (length (above ++ left)) /\ line t = S (lines above) /\ col t = S (length left).

Definition token_of (r : report) : token :=
  match r with Warn t _ | WarnSuggest t _ _ | Panics t _ | PanicSuggest t _ _ | PanicHints t _ _ | Error t _ | ErrorSuggest t _ _ | ErrorHints t _ _ => t end.
Definition message_of (r : report) : bytes :=
  match r with Warn _ m | WarnSuggest _ m _ | Panics _ m | PanicSuggest _ m _ | PanicHints _ m _ | Error _ m | ErrorSuggest _ m _ | ErrorHints _ m _ => m end.
Definition is_warning (r : report) : bool := match r with Warn _ _ | WarnSuggest _ _ _ => true | _ => false end.
Definition is_panic (r : report) : bool := match r with Panics _ _ | PanicSuggest _ _ _ | PanicHints _ _ _ => true | _ => false end.
Definition hints_of (r : report) : list bytes :=
  match r with
  | WarnSuggest _ _ (Some s) | PanicSuggest _ _ (Some s) | ErrorSuggest _ _ (Some s) => [s]
  | PanicHints _ _ hs | ErrorHints _ _ hs => hs
  | _ => []
  end.
Definition level (r : report) : bytes := if is_warning r then bs "warning" else bs "error".
Definition advice (r : report) : bytes := if is_warning r then bs "note" else bs "help".

(** The report: what and where; the line of the source; a caret below the place; the hints *)
Definition hint_text (r : report) (h : bytes) : bytes := bs "   |" ++ end_of_line ++ bs "   = " ++ advice r ++ bs ": " ++ h ++ end_of_line.
Definition bars (r : report) : bytes :=
  match r with
  | Warn _ _ => bs "   |" ++ end_of_line ++ bs "   |" ++ end_of_line
  | Panics _ _ | Error _ _ => bs "   |" ++ end_of_line
  | _ => []
  end.
Definition shown (file : bytes) (r : report) (left rest : bytes) : bytes :=
  let t := token_of r in
  level r ++ bs ": " ++ message_of r ++ end_of_line ++
  bs "  --> " ++ file ++ bs ":" ++ number (line t) ++ bs ":" ++ number (col t) ++ end_of_line ++
  bs "   |" ++ end_of_line ++
  number (line t) ++ spaces (3 - length (number (line t))) ++ bs "| " ++ left ++ rest ++ end_of_line ++
  bs "   | " ++ spaces (length left) ++ bs "^ here" ++ end_of_line ++
  bars r ++ flat_map (hint_text r) (hints_of r).

(** The colours: each character with what was set since the last reset, and in the end (None) what is still set *)
Definition colour := list bytes.
Fixpoint paint (inside : option bytes) (s : colour) (p : bytes) : list (colour * option N) :=
  match p with
  | [] => [(s, None)]
  | c :: r =>
    match inside with
    | Some w => if (c =? 109)%N then paint None (if beq_bytes w (bs "[0") then [] else s ++ [w]) r else paint (Some (w ++ [c])) s r
    | None => if (c =? 27)%N then paint (Some []) s r else (s, Some c) :: paint None s r
    end
  end.
Definition ink (s : colour) (p : bytes) : list (colour * option N) := map (fun c => (s, Some c)) p.
(** Errors red and warnings yellow, the message bold, the frame blue, the hints cyan; what comes from the source has no colour *)
Definition hue (r : report) : colour := if is_warning r then [bs "[1;33"] else [bs "[1;31"].
Definition coloured (file : bytes) (r : report) (left rest : bytes) : list (colour * option N) :=
  let t := token_of r in
  ink (hue r) (level r ++ bs ": ") ++ ink [bs "[1"] (message_of r) ++ ink [] end_of_line ++
  ink [bs "[1;34"] (bs "  --> ") ++ ink [] (file ++ bs ":" ++ number (line t) ++ bs ":" ++ number (col t) ++ end_of_line) ++
  ink [bs "[1;34"] (bs "   |" ++ end_of_line) ++
  ink [bs "[1;34"] (number (line t) ++ spaces (3 - length (number (line t))) ++ bs "| ") ++ ink [] (left ++ rest ++ end_of_line) ++
  ink [bs "[1;34"] (bs "   | ") ++ ink [] (spaces (length left)) ++ ink (hue r) (bs "^ here") ++ ink [] end_of_line ++
  ink [bs "[1;34"] (bars r) ++
  flat_map (fun h => ink [bs "[1;34"] (bs "   |" ++ end_of_line) ++ ink [bs "[1;36"] (bs "   = " ++ advice r ++ bs ": ") ++ ink [] (h ++ end_of_line)) (hints_of r) ++
  [([], None)].

(** What the editor is told *)
Definition editor_text (r : report) : bytes :=
  match r with
  | PanicSuggest _ m g | ErrorSuggest _ m g => m ++ bs " (Suggestion: " ++ match g with Some s => s | None => [] end ++ bs ")"
  | PanicHints _ m hs => m ++ flat_map (fun h => end_of_line ++ bs "Help: " ++ h) hs
  | ErrorHints _ m hs => m ++ flat_map (fun h => end_of_line ++ h) hs
  | r => message_of r
  end.
Definition total (hs : list bytes) : nat := fold_right (fun h n => 7 + length h + n) 0 hs.
(** Texts that fit, without colours of their own *)
Definition fits (file src : bytes) (r : report) : Prop :=
  plain file /\ plain src /\ plain (message_of r) /\ Forall plain (hints_of r) /\ Forall (fun h => h <> []) (hints_of r) /\
  total (hints_of r) < 2048 /\
  match r with PanicHints _ m hs | ErrorHints _ m hs => hs <> [] /\ length m < 4096 | _ => length (editor_text r) < 1024 end.
Definition placed (src : bytes) (r : report) : Prop := exists above left rest below, stands src (token_of r) above left rest below.
Fixpoint joined (hs : list bytes) : bytes := match hs with [] => [] | [h] => h | h :: hs => h ++ end_of_line ++ joined hs end.
Definition advice_of (r : report) : option bytes := match hints_of r with [] => None | hs => Some (joined hs) end.

(** The reports of a history that are made: an error that ends the compiler is the last *)
Fixpoint reached (l : list report) : list report := match l with [] => [] | r :: l => r :: if is_panic r then [] else reached l end.
(** The output shows the report in its colours, at a place of the source *)
Definition shows (file src : bytes) (o : out) (r : report) : Prop :=
  exists x above left rest below, o = Text x /\ stands src (token_of r) above left rest below /\ visible x = shown file r left rest /\ paint None [] x = coloured file r left rest.
