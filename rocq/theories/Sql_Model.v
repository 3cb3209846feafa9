(** Model of the sql plugin, plugins/sql.c: the statements of a block become a statement expression of C, and what
    that does when it runs.
    The text is a C string (no byte 0, bytes below 128).  The C code is kept as a tree: what fprintf writes for it is
    in the comments.  Simplified: the values are C expressions without effects, given by [ev] (None: the compiler
    rejects the text); int of C is given by [dec], its text; column names are identifiers of C if not empty; memory
    suffices. *)
From Verif Require Import Common.
Local Open Scope nat_scope.

Definition is_space (c : N) : bool := ((c =? 32) || ((9 <=? c) && (c <=? 13)))%N.
Definition lower (c : N) : N := if ((65 <=? c) && (c <=? 90))%N then (c + 32)%N else c.
Definition ident (c : N) : bool := ((48 <=? c) && (c <=? 57) || (65 <=? c) && (c <=? 90) || (97 <=? c) && (c <=? 122) || (c =? 95))%N.

(** skip_whitespace, 78-116 *)
Fixpoint line (p : bytes) : bytes := match p with [] => [] | c :: r => if (c =? 10)%N then p else line r end.
Fixpoint comment (p : bytes) : bytes :=
  match p with
  | [] => []
  | c :: r => match r with
              | d :: r' => if ((c =? 42) && (d =? 47))%N then r' else comment r
              | [] => comment r
              end
  end.
Fixpoint skip_f (fuel : nat) (p : bytes) : bytes :=
  match fuel with 0 => p | S fuel =>
    match p with
    | [] => []
    | c :: r =>
      if is_space c then skip_f fuel r
      else if (c =? 47)%N then
        match r with
        | d :: r' => if (d =? 47)%N then skip_f fuel (line r') else if (d =? 42)%N then skip_f fuel (comment r') else p
        | [] => p
        end
      else p
    end
  end.
Definition skip (p : bytes) : bytes := skip_f (S (length p)) p.

(** match_kw, 118-127 *)
Fixpoint match_ci (k p : bytes) : option bytes :=
  match k, p with
  | [], _ => Some p
  | a :: k, c :: p => if (lower a =? lower c)%N then match_ci k p else None
  | _ :: _, [] => None
  end.
Definition match_kw (k p : bytes) : option bytes :=
  match match_ci k p with
  | Some r => match r with c :: _ => if ident c then None else Some r | [] => Some r end
  | None => None
  end.
(** the loops over names, 136-139 and others *)
Fixpoint word (p : bytes) : bytes * bytes :=
  match p with [] => ([], []) | c :: r => if ident c then let '(a, b) := word r in (c :: a, b) else ([], p) end.

(** A column: its name, and whether it is const char* (and not int), 185-195.
    strncasecmp with the length of the type: any beginning of TEXT or STRING *)
Definition is_text (t : bytes) : bool :=
  match t with
  | [] => false
  | _ => match match_ci t (bs "TEXT") with Some _ => true | None => match match_ci t (bs "STRING") with Some _ => true | None => false end end
  end.
Definition column : Type := bytes * bool.
Definition tables : Type := list (bytes * list column).      (* the newest first *)
Fixpoint find {A} (t : bytes) (g : list (bytes * A)) : option A :=
  match g with [] => None | (n, c) :: g => if beq_bytes n t then Some c else find t g end.

(** typedef struct { columns } Row_t; static Row_t table_t[128]; static int count_t = 0;
    if (count_t < 128) { table_t[count_t] = (Row_t){ values }; count_t++; }
    for (...) { printf("%d %s\n", table_t[_i].column, ...); } *)
Inductive cst :=
| CCreate (t : bytes) (cols : list column)
| CInsert (t : bytes) (values : list bytes)
| CSelect (t : bytes) (cols : list column).

Definition comma (p : bytes) : bytes := match p with c :: r => if (c =? 44)%N then r else p | [] => p end.
Definition semicolon (p : bytes) : bytes := match p with c :: r => if (c =? 59)%N then r else p | [] => p end.
Definition closing (p : bytes) : bytes := match p with c :: r => if (c =? 41)%N then r else p | [] => p end.
(** 162-203; strcpy to 32 bytes, 41 *)
Fixpoint columns (fuel : nat) (p : bytes) (acc : list column) : res (list column * bytes) :=
  match fuel with 0 => Fuel | S fuel =>
    match p with
    | [] => Ok (acc, p)
    | c :: _ =>
      if (c =? 41)%N then Ok (acc, p)
      else let '(n, p) := word (skip p) in
           if match n, p with [], c :: _ => negb (c =? 44)%N | [], [] => true | _, _ => false end then Ok (acc, p)
           else if 32 <=? length n then UB
           else let '(t, p) := word (skip p) in
                columns fuel (comma (skip p)) (acc ++ [(n, is_text t)])
    end
  end.
(** parse_create_table, 129-219; char table_name[64] *)
Definition create (g : tables) (p : bytes) : res (cst * tables * bytes) :=
  let '(t, p) := word (skip p) in
  if 64 <=? length t then UB
  else match skip p with
       | c :: p => if (c =? 40)%N then
                     do '(cols, p) <- columns (S (length p)) (skip p) [];
                     Ok (CCreate t cols, (t, cols) :: g, semicolon (skip (closing p)))
                   else Panic
       | [] => Panic
       end.

(** A string, behind its quote, 256-270: what was read and what is left; a backslash at the end steps over the end *)
Fixpoint quoted (p : bytes) : res (bytes * bytes) :=
  match p with
  | [] => Ok ([], [])
  | c :: r =>
    if (c =? 34)%N then Ok ([c], r)
    else if (c =? 92)%N then match r with [] => UB | d :: r' => do '(a, b) <- quoted r'; Ok (c :: d :: a, b) end
    else do '(a, b) <- quoted r; Ok (c :: a, b)
  end.
Fixpoint plain (p : bytes) : bytes * bytes :=
  match p with [] => ([], []) | c :: r => if ((c =? 44) || (c =? 41))%N then ([], p) else let '(a, b) := plain r in (c :: a, b) end.
Definition one_value (p : bytes) : res (bytes * bytes) :=
  match p with
  | c :: r => if (c =? 34)%N then do '(a, b) <- quoted r; Ok (c :: a, b) else Ok (plain p)
  | [] => Ok ([], [])
  end.
(** 250-287: the texts between the commas written *)
Fixpoint values (fuel : nat) (p cur : bytes) (acc : list bytes) : res (list bytes * bytes) :=
  match fuel with 0 => Fuel | S fuel =>
    match p with
    | [] => Ok (acc ++ [cur], p)
    | c :: _ =>
      if (c =? 41)%N then Ok (acc ++ [cur], p)
      else do '(v, p) <- one_value (skip p);
           match skip p with
           | c :: r => if (c =? 44)%N then values fuel r [] (acc ++ [cur ++ v]) else values fuel (c :: r) (cur ++ v) acc
           | [] => values fuel [] (cur ++ v) acc
           end
    end
  end.
Definition opening (p : bytes) : bytes := match p with c :: r => if (c =? 40)%N then r else p | [] => p end.
(** parse_insert, 221-303 *)
Definition insert (p : bytes) : res (cst * bytes) :=
  let p := skip p in
  let p := match match_kw (bs "INTO") p with Some p => p | None => p end in
  let '(t, p) := word (skip p) in
  if 64 <=? length t then UB
  else match match_kw (bs "VALUES") (skip p) with
       | None => Panic
       | Some p =>
         let p := opening (skip p) in
         do '(vs, p) <- values (S (length p)) p [] [];
         Ok (CInsert t vs, semicolon (skip (closing p)))
       end.
(** parse_select, 305-372 *)
Definition select (g : tables) (p : bytes) : res (cst * bytes) :=
  let p := skip p in
  let p := match match_kw (bs "*") p with Some p => p | None => p end in
  match match_kw (bs "FROM") (skip p) with
  | None => Panic
  | Some p =>
    let '(t, p) := word (skip p) in
    if 64 <=? length t then UB
    else match find t g with None => Panic | Some cols => Ok (CSelect t cols, semicolon (skip p)) end
  end.
(** sql_transpile, 374-411 *)
Fixpoint top (fuel : nat) (g : tables) (p : bytes) : res (list cst * tables) :=
  match fuel with 0 => Fuel | S fuel =>
    match skip p with
    | [] => Ok ([], g)
    | c :: r =>
      match match_kw (bs "CREATE") (c :: r) with
      | Some p =>
        let p := skip p in
        do '(s, g, p) <- create g (match match_kw (bs "TABLE") p with Some p => p | None => p end);
        do '(l, g) <- top fuel g p; Ok (s :: l, g)
      | None =>
        match match_kw (bs "INSERT") (c :: r) with
        | Some p => do '(s, p) <- insert p; do '(l, g) <- top fuel g p; Ok (s :: l, g)
        | None =>
          match match_kw (bs "SELECT") (c :: r) with
          | Some p => do '(s, p) <- select g p; do '(l, g) <- top fuel g p; Ok (s :: l, g)
          | None => top fuel g r
          end
        end
      end
    end
  end.
Definition transpile (g : tables) (p : bytes) : res (list cst * tables) := top (S (length p)) g p.

(** * The C code *)
Inductive cell := Num (z : Z) | Str (s : bytes) | Null.
Section Run.
Variable ev : bytes -> option cell.
Variable dec : Z -> bytes.

(** what the compiler checks in a block: the tables declared in it, the newest first *)
Definition known (t : bytes) (d : tables) : bool := match find t d with Some _ => true | None => false end.
Fixpoint distinct (l : list bytes) : bool := match l with [] => true | x :: l => negb (existsb (beq_bytes x) l) && distinct l end.
Definition has_type (text : bool) (c : cell) : bool := match c with Num _ => negb text | Str _ | Null => text end.
(** a comma may be behind the last value, and no value at all is allowed *)
Fixpoint initialiser (vs : list bytes) : option (list cell) :=
  match vs with
  | [] => Some []
  | [[]] => Some []
  | [] :: _ => None
  | v :: vs => match ev v, initialiser vs with Some c, Some l => Some (c :: l) | _, _ => None end
  end.
Fixpoint typed (cols : list column) (cs : list cell) : bool :=
  match cols, cs with (_, t) :: cols, c :: cs => has_type t c && typed cols cs | _, _ => true end.
Definition check (d : tables) (s : cst) : option tables :=
  match s with
  | CCreate t cols =>
    if known t d || negb (distinct (map fst cols)) || existsb (fun n => match n with [] => true | _ => false end) (map fst cols) then None else Some ((t, cols) :: d)
  | CInsert t vs =>
    match find t d, initialiser vs with Some cols, Some cs => if typed cols cs then Some d else None | _, _ => None end
  | CSelect t cols =>
    match find t d with
    | Some have => if forallb (fun c => match find (fst c) have with Some _ => true | None => false end) cols then Some d else None
    | None => None
    end
  end.
Fixpoint checked (d : tables) (l : list cst) : bool :=
  match l with [] => true | s :: l => match check d s with Some d => checked d l | None => false end end.

(** the static variables: the rows of every table, with count_t the number of them *)
Definition rows : Type := bytes -> list (list cell).
Definition set_rows (t : bytes) (l : list (list cell)) (r : rows) : rows := fun u => if beq_bytes u t then l else r u.
(** members without a value are 0 *)
Fixpoint row (cols : list column) (cs : list cell) : list cell :=
  match cols with
  | [] => []
  | (_, t) :: cols => match cs with c :: cs => c :: row cols cs | [] => (if t then Null else Num 0) :: row cols [] end
  end.
Fixpoint member (have : list column) (cs : list cell) (n : bytes) : option cell :=
  match have, cs with (m, _) :: have, c :: cs => if beq_bytes m n then Some c else member have cs n | _, _ => None end.
(** printf: %s of a null pointer, and a value of another type, are undefined *)
Definition shown (text : bool) (c : option cell) : res bytes :=
  match text, c with false, Some (Num z) => Ok (dec z) | true, Some (Str s) => Ok s | _, _ => UB end.
Fixpoint shown_all (have : list column) (cs : list cell) (cols : list column) : res bytes :=
  match cols with
  | [] => Ok [10%N]
  | (n, t) :: cols =>
    do a <- shown t (member have cs n); do b <- shown_all have cs cols;
    Ok (a ++ (match cols with [] => [] | _ => bs " " end) ++ b)
  end.
Fixpoint shown_rows (have : list column) (l : list (list cell)) (cols : list column) : res bytes :=
  match l with [] => Ok [] | cs :: l => do a <- shown_all have cs cols; do b <- shown_rows have l cols; Ok (a ++ b) end.
Fixpoint exec (d : tables) (l : list cst) (r : rows) (out : bytes) : res (rows * bytes) :=
  match l with
  | [] => Ok (r, out)
  | CCreate t cols :: l => exec ((t, cols) :: d) l r out
  | CInsert t vs :: l =>
    match find t d, initialiser vs with
    | Some cols, Some cs => exec d l (if length (r t) <? 128 then set_rows t (r t ++ [row cols cs]) r else r) out
    | _, _ => Panic
    end
  | CSelect t cols :: l =>
    match find t d with Some have => do o <- shown_rows have (r t) cols; exec d l r (out ++ o) | None => Panic end
  end.
(** a program with this block: its code, if the compilers take it, run with the rows the static variables have *)
Definition block (g : tables) (p : bytes) (r : rows) : res (rows * bytes) :=
  do '(l, _) <- transpile g p; if checked [] l then exec [] l r [] else Panic.
End Run.
