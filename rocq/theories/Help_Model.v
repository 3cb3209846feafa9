(** Model of two answers of the language server: the signature of the function being called
    (lsp_signature_help, src/lsp/lsp_analysis.c 889-1020) and the outline of a file (ast_to_symbol, lsp_document_symbol, 694-815).
    Simplified: the functions of the parser are given, their types as the texts of type_to_string (or NULL); isspace and
    isalnum are those of ASCII; forming a pointer in front of or behind the text is allowed; the text has no NUL. *)
From Verif Require Import Common Compl_Model.
Local Open Scope nat_scope.

Record sig := Sig { s_name : bytes; s_args : list (option bytes); s_ret : option bytes }.
Definition space (c : N) : bool := ((c =? 32) || ((9 <=? c) && (c <=? 13)))%N.
(** the text in front of the position, 905-925: None behind the end of the text *)
Definition before (src : bytes) (line col : nat) : option bytes :=
  let pos := length src - length (to_line src line) + col in if length src <? pos then None else Some (firstn pos src).
(** the name in front of the last parenthesis, 927-956, on the text backwards *)
Fixpoint scan (r : bytes) : bytes :=
  match r with
  | [] => []
  | c :: r => if (c =? 41)%N then [] else if (c =? 40)%N then rev (take_while ident (drop_while space r)) else scan r
  end.
(** the parameters, 974-991: [n] bytes are in the buffer of 1024 *)
Definition text (t : option bytes) : bytes := match t with Some t => t | None => bs "unknown" end.
Fixpoint params_text (first : bool) (l : list (option bytes)) (acc : bytes) : res bytes :=
  match l with
  | [] => Ok acc
  | t :: l => let acc := acc ++ (if first then [] else bs ", ") ++ text t in if 1024 <=? length acc then UB else params_text false l acc
  end.
(** 992-995: the label of 2048 bytes *)
Definition label_of (f : sig) : res bytes :=
  do ps <- params_text true (s_args f) [];
  let l := bs "fn " ++ s_name f ++ bs "(" ++ ps ++ bs ") -> " ++ (match s_ret f with Some t => t | None => bs "void" end) in
  if 2048 <=? length l then UB else Ok l.
(** 958-1012 *)
Definition help (funcs : list sig) (src : bytes) (line col : nat) : res (option bytes) :=
  match before src line col with
  | None => Ok None
  | Some s =>
    let name := scan (rev s) in
    if (0 <? length name) && (length name <? 255) then
      match find (fun f => beq_bytes (s_name f) name) funcs with
      | Some f => do l <- label_of f; Ok (Some l)
      | None => Ok None
      end
    else Ok None
  end.

(** ** The outline *)
Inductive what := WFun | WStruct | WVar | WConst | WEnum | WField | WOther.
(** a declaration: its kind, name, token (line and column from 1, length) and the fields of a struct *)
Inductive decl := D (w : what) (name : option bytes) (line col len : nat) (fields : list decl).
Inductive entry := E (name : bytes) (kind line from till : nat) (children : option (list entry)).
(** 703-732 *)
Definition number (w : what) : option nat :=
  match w with WFun => Some 12 | WStruct => Some 23 | WVar => Some 13 | WConst => Some 14 | WEnum => Some 10 | WField => Some 8 | WOther => None end.
(** ast_to_symbol, 694-777 *)
Fixpoint symbol_of (d : decl) : list entry :=
  match d with D w name line col len fields =>
    match number w, name with
    | Some k, Some n =>
      let c := match w, fields with WStruct, _ :: _ => Some (flat_map symbol_of fields) | _, _ => None end in
      [E n k (line - 1) (col - 1) (col - 1 + len) c]
    | _, _ => []
    end
  end.
(** lsp_document_symbol, 779-814 *)
Definition outline (file : option (list decl)) : option (list entry) := option_map (flat_map symbol_of) file.
