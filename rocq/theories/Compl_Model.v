(** Model of completion in the language server, src/lsp/lsp_analysis.c 302-686.
    Simplified: the lists of the parser are given (a type as the text type_to_string or type_str has; for a variable the
    first of them there is; a symbol of the program by [symbol]); an item of the answer is kept as its label, kind and
    detail; isalnum is that of ASCII; the types are not null pointers. *)
From Verif Require Import Common.
Local Open Scope nat_scope.

(** a statement: a variable with the line of its token (from 1), or what is searched for more *)
Inductive node :=
| Decl (name : bytes) (line : nat) (ty : option bytes)
| Block (l : list node)
| If (a b : option node) | While (b : option node) | For (i b : option node)
| Leaf.
Definition some (o : option node) : list node := match o with Some n => [n] | None => [] end.
Definition kids (n : node) : list node :=
  match n with Block l => l | If a b => some a ++ some b | While b => some b | For i b => some i ++ some b | Decl _ _ _ | Leaf => [] end.
(** the queue of 1024 places, 310-379 and 627-682: the nodes taken out, in order; [tail]: how many were put in *)
Fixpoint walk (fuel : nat) (q : list node) (tail : nat) : list node :=
  match fuel with 0 => [] | S fuel =>
    match q with
    | [] => []
    | n :: q => if 1024 <=? tail then [] else
      let new := firstn (1024 - tail) (kids n) in n :: walk fuel (q ++ new) (tail + length new)
    end
  end.
Record func := Func { params : list (bytes * bytes); body : option node }.
Definition visited (f : func) : list node := match body f with None => [] | Some n => walk 1024 [n] 1 end.
(** find_local_in_func, 302-379 *)
Definition declares (name : bytes) (n : node) : bool := match n with Decl x _ _ => beq_bytes x name | _ => false end.
Definition find_local (f : func) (name : bytes) : option node :=
  if existsb (fun p => beq_bytes (fst p) name) (params f) then None else find (declares name) (visited f).

Record project := Project {
  index : list (nat * func);                    (* the definitions of functions, with their lines from 0 *)
  source : bytes;
  structs : list (bytes * list (bytes * bytes));
  globals : list bytes; functions : list bytes; symbol : bytes -> option bytes }.
Record item := Item { label : bytes; kind : nat; detail : option bytes }.

(** the function, 423-440 *)
Fixpoint nearest (l : list (nat * func)) (line : nat) (best : option (nat * func)) : option (nat * func) :=
  match l with
  | [] => best
  | (s, f) :: l =>
    let better := match best with None => true | Some (b, _) => b <? s end in
    nearest l line (if (s <=? line) && better then Some (s, f) else best)
  end.
Definition target (p : project) (line : nat) : option func := match nearest (index p) line None with Some (_, f) => Some f | None => None end.
(** resolve_local_type, 381-408, and 473-500 *)
Definition type_of (p : project) (t : option func) (name : bytes) : option bytes :=
  match match t with Some f => find (fun x => beq_bytes (fst x) name) (params f) | None => None end with
  | Some (_, ty) => Some ty
  | None => match match t with Some f => find_local f name | None => None end with
            | Some (Decl _ _ (Some ty)) => Some ty
            | _ => symbol p name
            end
  end.
(** the line, 446-455 *)
Fixpoint to_line (s : bytes) (line : nat) : bytes :=
  match line with 0 => s | S k => match s with [] => [] | c :: r => if (c =? 10)%N then to_line r k else to_line r line end end.
Definition blank (c : N) : bool := ((c =? 32) || (c =? 9))%N.
Definition ident (c : N) : bool := (((48 <=? c) && (c <=? 57)) || ((65 <=? c) && (c <=? 90)) || ((97 <=? c) && (c <=? 122)) || (c =? 95))%N.
Fixpoint drop_while (f : N -> bool) (s : bytes) : bytes := match s with c :: r => if f c then drop_while f r else s | [] => [] end.
Fixpoint take_while (f : N -> bool) (s : bytes) : bytes := match s with c :: r => if f c then c :: take_while f r else [] | [] => [] end.
(** the name in front of the dot, 457-471: [] if there is none *)
Definition word_at (s : bytes) (col : nat) : res bytes :=
  match col with
  | 0 => Ok []
  | S k => match nth_error (s ++ [0%N]) k with
           | None => UB
           | Some c => if (c =? 46)%N then Ok (rev (take_while ident (drop_while blank (rev (firstn k s))))) else Ok []
           end
  end.
(** 504-517 *)
Fixpoint starts (p s : bytes) : bool := match p, s with [], _ => true | a :: p, b :: s => (a =? b)%N && starts p s | _ :: _, [] => false end.
Definition clean (ty : bytes) : bytes := take_while (fun c => negb (c =? 42)%N) (if starts (bs "struct ") ty then skipn 7 ty else ty).
(** 519-546 *)
Fixpoint fields (l : list (bytes * bytes)) : res (list item) :=
  match l with
  | [] => Ok []
  | (n, ty) :: l => if 250 <=? length ty then UB else do r <- fields l; Ok (Item n 5 (Some (bs "field " ++ ty)) :: r)
  end.
Definition keywords : list bytes :=
  [bs "fn"; bs "struct"; bs "enum"; bs "alias"; bs "return"; bs "if"; bs "else"; bs "for"; bs "while"; bs "break"; bs "continue"; bs "true"; bs "false"; bs "int";
   bs "char"; bs "bool"; bs "string"; bs "void"; bs "import"; bs "module"; bs "test"; bs "assert"; bs "defer"; bs "sizeof"; bs "opaque"; bs "unsafe"; bs "asm";
   bs "trait"; bs "impl"; bs "u8"; bs "u16"; bs "u32"; bs "u64"; bs "i8"; bs "i16"; bs "i32"; bs "i64"; bs "f32"; bs "f64"; bs "usize"; bs "isize"; bs "const"; bs "let"; bs "mut"].
Definition local_item (line : nat) (n : node) : list item := match n with Decl x l _ => if l <? line then [Item x 6 None] else [] | _ => [] end.
(** 556-683 *)
Definition general (p : project) (t : option func) (line : nat) : list item :=
  map (fun k => Item k 14 None) keywords ++ map (fun k => Item k 21 None) (globals p) ++ map (fun s => Item (fst s) 22 None) (structs p) ++ map (fun k => Item k 3 None) (functions p) ++
  match t with Some f => map (fun x => Item (fst x) 6 (Some (bs "argument"))) (params f) ++ flat_map (local_item line) (visited f) | None => [] end.
(** lsp_completion, 410-686 *)
Definition completion (p : project) (line col : nat) : res (list item) :=
  let t := target p line in
  do w <- word_at (to_line (source p) line) col;
  match w with
  | [] => Ok (general p t line)
  | _ => if 256 <=? length w then UB
         else match type_of p t w with
              | None => Ok (general p t line)
              | Some ty => let c := clean ty in
                           if 256 <=? length c then UB
                           else match find (fun s => beq_bytes (fst s) c) (structs p) with Some (_, fs) => fields fs | None => Ok (general p t line) end
              end
  end.
