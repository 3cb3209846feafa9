(** Model of the REPL session: src/repl/repl.c:14-67 (is_header_line), 991-1049 (repl_get_code),
    1051-2533 (run_repl).  The line editor is [Edit_Model.readline].

    The array of history entries and the input buffer are heap blocks that the loop frees: using one
    after that, or freeing it twice, is [UB]; so is writing past a buffer.  Given: what the parser says
    of a statement, whether the compiler calls an expression void, the exit status of a program, and
    the files.  Simplifications: memory suffices, numbers fit in an int, temporary files can be written,
    Up in the editor may read entries of a freed history, and the commands :show, :edit, :vars, :funcs,
    :structs, :type, :time, :c leave nothing but a mark ([Other]). *)
From Verif Require Import Common Edit_Model.

(** 16-23 *)
Fixpoint skip_blanks (l : bytes) : bytes :=
  match l with c :: r => if ((c =? 32) || (c =? 9))%N then skip_blanks r else l | [] => [] end.
(** 20-64 *)
Definition header_words : list bytes := map bs
  ["struct"; "impl"; "fn"; "use"; "include"; "typedef"; "enum"; "const"; "def"; "#include"; "import"]%string.
(** is_header_line, 14-67 *)
Definition is_header_line (l : bytes) : bool := existsb (fun w => is_prefix w (skip_blanks l)) header_words.

(** 1033-1043 *)
Definition brace_count (l : bytes) : Z :=
  fold_left (fun d c => if (c =? 123)%N then (d + 1)%Z else if (c =? 125)%N then (d - 1)%Z else d) l 0%Z.
(** the loop of 1006-1044 *)
Fixpoint code_loop (hist : list bytes) (depth : Z) (in_global : bool) (g m : bytes) : bytes * bytes :=
  match hist with
  | [] => (g, m)
  | l :: r =>
      let in_global := if (depth =? 0)%Z then is_header_line l else in_global in
      let g' := if in_global then g ++ l ++ [10%N] else g in
      let m' := if in_global then m else m ++ l ++ [32%N] in
      code_loop r (depth + brace_count l) in_global g' m'
  end.
(** repl_get_code, 991-1049; [UB]: one of the two buffers is too small *)
Definition get_code (hist : list bytes) : res (bytes * bytes) :=
  let total := fold_right (fun l n => length l + 2 + n) 0 hist in
  let '(g, m) := code_loop hist 0 false [] [] in
  if (total + 1 <? length g + 1) || (total + 1 <? length m + 1) then UB else Ok (g, m).

(** fgets into a buffer of [n] bytes: at most [n-1] bytes, up to a newline *)
Fixpoint fgets (n : nat) (file : bytes) : bytes * bytes :=
  match n, file with
  | 0, _ | _, [] => ([], file)
  | S n', c :: r => if (c =? 10)%N then ([c], r) else let '(a, b) := fgets n' r in (c :: a, b)
  end.
(** strip a newline at the end: 1075-1078 and others *)
Definition chomp (l : bytes) : bytes :=
  match rev l with c :: r => if (c =? 10)%N then rev r else l | [] => l end.
(** 1072-1092, 1650-1669: the lines that are not empty, one by one *)
Fixpoint load_lines (fuel : nat) (file : bytes) : list bytes :=
  match fuel, file with
  | S n, _ :: _ => let '(a, r) := fgets 1023 file in
                   let l := chomp (cstr a) in
                   (match l with [] => [] | _ => [l] end) ++ load_lines n r
  | _, _ => []
  end.
Definition load_file (file : bytes) : list bytes := load_lines (length file) file.
(** 1117-1150: the lines of ~/.zprep_init.zc *)
Fixpoint init_lines (fuel : nat) (file : bytes) : list bytes :=
  match fuel, file with
  | S n, _ :: _ => let '(a, r) := fgets 1023 file in
                   let l := skip_blanks (chomp (cstr a)) in
                   (match l with [] => [] | c :: _ => if ((c =? 47) || (c =? 35))%N then [] else [l] end) ++ init_lines n r
  | _, _ => []
  end.
Definition load_init (file : bytes) : list bytes := init_lines (length file) file.

Inductive event :=
| Ran (program : bytes)                 (* zc run on this text *)
| Wrote (file : bytes) (text : bytes)   (* :save *)
| Kept (text : bytes)                   (* the history file *)
| Listed (l : list bytes)               (* :history, :imports *)
| Shell (command : bytes)
| Other (command : bytes).

(** input_buffer: NULL, a block with this text, a block that was freed *)
Inductive inbuf := Null | Live (t : bytes) | Dangling.
Record st := St { hist : list bytes; alive : bool; inp : inbuf; braces : Z; parens : Z; watches : list bytes }.

Definition set_hist (h : list bytes) (s : st) : st := St h (alive s) (inp s) (braces s) (parens s) (watches s).
Definition set_inp (i : inbuf) (b p : Z) (s : st) : st := St (hist s) (alive s) i b p (watches s).
Definition set_watches (w : list bytes) (s : st) : st := St (hist s) (alive s) (inp s) (braces s) (parens s) w.
(** an access to the entries of the history *)
Definition access {A} (s : st) (x : res A) : res A := if alive s then x else UB.
Definition access_if_any {A} (s : st) (x : res A) : res A :=
  if alive s then x else match hist s with [] => x | _ => UB end.

(** 1203-1206 *)
Fixpoint trim_left (l : bytes) : bytes :=
  match l with c :: r => if ((c =? 32) || (c =? 9))%N then trim_left r else l | [] => [] end.
Definition trim_right (l : bytes) : bytes := rev (trim_left (rev l)).
(** 1553-1561 *)
Fixpoint spaces_left (l : bytes) : bytes := match l with c :: r => if (c =? 32)%N then spaces_left r else l | [] => [] end.
Definition spaces_trim (l : bytes) : bytes := rev (spaces_left (rev (spaces_left l))).
(** atoi *)
Definition isspace (c : N) : bool := ((c =? 32) || (9 <=? c) && (c <=? 13))%N.
Fixpoint skip_space (l : bytes) : bytes := match l with c :: r => if isspace c then skip_space r else l | [] => [] end.
Fixpoint digits (l : bytes) (acc : Z) : Z :=
  match l with c :: r => if ((48 <=? c) && (c <=? 57))%N then digits r (acc * 10 + Z.of_N (c - 48)) else acc | [] => acc end.
Definition atoi (l : bytes) : Z :=
  match skip_space l with
  | c :: r => if (c =? 45)%N then (- digits r 0)%Z else if (c =? 43)%N then digits r 0 else digits (c :: r) 0
  | [] => 0%Z
  end.
(** 1391-1396, 1598-1601: remove entry [i] *)
Definition remove_nth {A} (i : nat) (l : list A) : list A := firstn i l ++ skipn (S i) l.

(** 2250-2293: the brackets of a line outside quotes *)
Fixpoint count_line (l : bytes) (esc quote : bool) (b p : Z) : Z * Z :=
  match l with
  | [] => (b, p)
  | c :: r =>
      if esc then count_line r false quote b p
      else if (c =? 92)%N then count_line r true quote b p
      else if (c =? 34)%N then count_line r false (negb quote) b p
      else if quote then count_line r false quote b p
      else count_line r false quote
             (if (c =? 123)%N then (b + 1)%Z else if (c =? 125)%N then (b - 1)%Z else b)
             (if (c =? 40)%N then (p + 1)%Z else if (c =? 41)%N then (p - 1)%Z else p)
  end.

(** 2473-2478 *)
Definition watch_text (w : bytes) : bytes :=
  bs "printf(""\033[90mwatch:" ++ w ++ bs " = \033[0m""); print ""{" ++ w ++ bs "}""; printf(""\n""); ".

Section Session.
Context (is_expr : bytes -> bool) (is_void : bytes -> bool) (status : bytes -> Z) (files : bytes -> option bytes) (home : bool).

(** 2361-2363: snprintf with the size of a pointer *)
Definition checked_text (l : bytes) : bytes := firstn 7 l ++ bs ";".
(** 2400-2418 *)
Definition probe_text (g m l : bytes) : bytes :=
  g ++ bs "
fn main() { _z_suppress_stdout(); " ++ m ++ bs " raw { typedef struct { int _u; } __REVEAL_TYPE__; } " ++
  bs " var _z_type_probe: __REVEAL_TYPE__; _z_type_probe = (" ++ l ++ bs "); }".
(** 2355-2464: what is run with the output on *)
Definition shown (before : list bytes) (l : bytes) : res bytes :=
  if is_header_line l then Ok []
  else if is_expr (checked_text l) then
    do '(g, m) <- get_code before;
    if is_void (probe_text g m l) then Ok l else Ok (bs "println ""{" ++ l ++ bs "}"";")
  else Ok l.
Fixpoint watch_texts (ws : list bytes) : res bytes :=
  match ws with
  | [] => Ok []
  | w :: r => if 1024 <? length (watch_text w) + 1 then UB else do t <- watch_texts r; Ok (watch_text w ++ t)
  end.
(** 2330-2484; [UB]: full_code is too small *)
Definition full_code (before : list bytes) (l : bytes) (ws : list bytes) : res bytes :=
  do '(g, m) <- get_code (before ++ [l]);
  let size := (Z.of_nat (length g + length m) + 4096 + match ws with [] => 0 | _ => 16384 end)%Z in
  do s <- shown before l;
  do w <- match ws with [] => Ok [] | _ => do t <- watch_texts ws; Ok (bs "; " ++ t) end;
  let code := g ++ bs "
fn main() { _z_suppress_stdout(); " ++ m ++ bs "_z_restore_stdout(); " ++ s ++ w ++ bs " }" in
  if (size <? Z.of_nat (length code) + 1)%Z then UB else Ok code.

(** 2505-2533, the end of the body of the loop: save the history, free it and the input buffer *)
Definition kept_text (h : list bytes) : bytes := flat_map (fun l => l ++ [10%N]) (skipn (length h - 1000) h).
Definition tail (s : st) (ev : list event) : res (st * list event * bool) :=
  do e <- (if home then access_if_any s (Ok [Kept (kept_text (hist s))]) else Ok []);
  if negb (alive s) then UB
  else match inp s with
       | Dangling => UB
       | i => Ok (St (hist s) false (match i with Null => Null | _ => Dangling end) (braces s) (parens s) (watches s),
                  ev ++ e, true)
       end.
(** 2310-2503: a complete line [t] *)
Definition eval (s : st) (t : bytes) : res (st * list event * bool) :=
  if negb (alive s) then UB else
  do code <- full_code (hist s) t (watches s);
  let h := if (status code =? 0)%Z then hist s ++ [t] else hist s in
  tail (set_inp Null 0 0 (set_hist h s)) [Ran code].
(** 2250-2329: a line that is not a command *)
Definition statement (s : st) (t : bytes) : res (st * list event * bool) :=
  let '(b, p) := count_line (t ++ [10%N]) false false (braces s) (parens s) in
  if (0 <? b)%Z || (0 <? p)%Z then Ok (set_inp (Live (t ++ [10%N])) b p s, [], true)
  else match t with
       | [] => Ok (set_inp Null 0 0 s, [], true)
       | _ => eval s t
       end.

Definition next (s : st) (ev : list event) : res (st * list event * bool) := Ok (s, ev, true).
(** 1219-2248: a command, in the order of the code; the last case is not a command of the REPL *)
Definition command (s : st) (t cmd : bytes) : res (st * list event * bool) :=
  if beq_bytes cmd (bs ":help") then next s []
  else if beq_bytes cmd (bs ":reset") then access_if_any s (next (set_hist [] s) [])
  else if beq_bytes cmd (bs ":quit") then Ok (s, [], false)
  else if is_prefix (bs ":show ") cmd then access_if_any s (next s [Other cmd])
  else if beq_bytes cmd (bs ":clear") then next s []
  else if beq_bytes cmd (bs ":undo") then access_if_any s (next (set_hist (removelast (hist s)) s) [])
  else if is_prefix (bs ":delete ") cmd then
    let idx := (atoi (skipn 8 cmd) - 1)%Z in
    if ((0 <=? idx) && (idx <? Z.of_nat (length (hist s))))%Z
    then access s (next (set_hist (remove_nth (Z.to_nat idx) (hist s)) s) [])
    else next s []
  else if is_prefix (bs ":edit") cmd then access_if_any s (next s [Other cmd])
  else if is_prefix (bs ":watch ") cmd then
    match spaces_trim (skipn 7 cmd) with
    | [] => next s []
    | w => if length (watches s) <? 16 then next (set_watches (watches s ++ [w]) s) [] else next s []
    end
  else if is_prefix (bs ":unwatch ") cmd then
    let idx := (atoi (skipn 9 cmd) - 1)%Z in
    if ((0 <=? idx) && (idx <? Z.of_nat (length (watches s))))%Z
    then next (set_watches (remove_nth (Z.to_nat idx) (watches s)) s) [] else next s []
  else if is_prefix (bs ":save ") cmd then
    access_if_any s (do '(g, m) <- get_code (hist s);
      next s [Wrote (skipn 6 cmd) (g ++ bs "

fn main() {
" ++ m ++ bs "
}
")])
  else if is_prefix (bs ":load ") cmd then
    match files (skipn 6 cmd) with
    | None => next s []
    | Some f => match load_file f with [] => next s [] | ls => access s (next (set_hist (hist s ++ ls) s) []) end
    end
  else if beq_bytes cmd (bs ":imports") then access_if_any s (next s [Listed (filter is_header_line (hist s))])
  else if beq_bytes cmd (bs ":history") then access_if_any s (next s [Listed (hist s)])
  else if beq_bytes cmd (bs ":vars") || beq_bytes cmd (bs ":funcs") || beq_bytes cmd (bs ":structs") || is_prefix (bs ":type ") cmd ||
          is_prefix (bs ":time ") cmd || is_prefix (bs ":c ") cmd then access_if_any s (next s [Other cmd])
  else if beq_bytes cmd (bs ":run") then
    access_if_any s (do '(g, m) <- get_code (hist s); next s [Ran (g ++ bs "
fn main() { " ++ m ++ bs " }")])
  else if is_prefix (bs ":doc ") cmd then next s []
  else statement s t.

(** 1184-2533: one line; [false]: the session ends *)
Definition step (s : st) (line : bytes) : res (st * list event * bool) :=
  let t := firstn 1022 line in
  match inp s with
  | Null =>
      let cmd := trim_right t in
      if beq_bytes cmd (bs "exit") || beq_bytes cmd (bs "quit") then Ok (s, [], false)
      else match cmd with
           | c :: r => if (c =? 33)%N then next s [Shell r]
                       else if (c =? 58)%N then command s t cmd
                       else statement s t
           | [] => statement s t
           end
  | _ => tail s []
  end.

(** a session whose editor gives these lines *)
Fixpoint session (s : st) (lines : list bytes) : res (st * list event) :=
  match lines with
  | [] => Ok (s, [])
  | l :: r =>
      do '(s', e, go) <- step s l;
      if go then do '(s2, e2) <- session s' r; Ok (s2, e ++ e2) else Ok (s', e)
  end.
(** 1062-1162: the history file and ~/.zprep_init.zc at the start *)
Definition begin (kept init : bytes) : st := St (if home then load_file kept ++ load_init init else []) true Null 0 0 [].

(** the loop 1160-2533 over the bytes of the terminal *)
Fixpoint loop (fuel : nat) (s : st) (input : bytes) : res (list event) :=
  match fuel with
  | 0 => Fuel
  | S n =>
      do '(o, rest) <- readline (hist s) (Z.to_nat (braces s)) input;
      match o with
      | Eof => Ok []
      | Line l =>
          do '(s', e, go) <- step s l;
          if go then do e2 <- loop n s' rest; Ok (e ++ e2) else Ok e
      end
  end.
End Session.
