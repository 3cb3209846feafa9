(** Model of the project index of the language server and of the requests that use it:
    src/lsp/lsp_index.c:45-260 (the walk that finds definitions and references, the search by
    position), src/lsp/lsp_project.c:105-316 (the files, definitions and references by name),
    src/lsp/lsp_analysis.c:142-236 (go to definition), 811-886 (references), 1013-1134 (rename),
    and cJSON_GetObjectItem (cJSON.c:1968-2008), which compares names without regard to case.

    Simplifications: strings have no NUL; memory suffices; a file is its address and its index
    (parsing is given: a file is updated with a tree).  [def_uri] is not read by any function: it
    says, for the specification, in which file the definition of a name is. *)
From Verif Require Import Common.
Local Open Scope Z_scope.

Record tok := Tok { t_line : Z; t_col : Z; t_len : Z }.       (* from 1; line 0: no token *)
Inductive kind :=
| KFunction | KVarDecl | KConst | KStruct | KEnum | KAlias | KTrait     (* definitions *)
| KVar                          (* a variable or function used *)
| KCall (by_name : bool)        (* a call; the callee is a name or not *)
| KWalked                       (* root, block, if, while, return, binary, match, for, loop, defer *)
| KOpaque.                      (* what the walk does not enter: impl, unary, member, index, lambda, ... *)
(** a node: its kind, name, token, the token of its definition, the rest of the hover text, the
    nodes below it in the order of the walk *)
Inductive tree := T (k : kind) (name : bytes) (t d : tok) (hover : bytes) (def_uri : bytes) (kids : list tree).

(** lsp_index.h LSPRange, with the name lsp_project.c:247-276 finds in its node *)
Record range := Range { r_def : bool; r_line : Z; r_col : Z; r_end : Z; r_dline : Z; r_dcol : Z;
                        r_kind : kind; r_name : option bytes; r_duri : bytes }.
(** the name a node is searched by: lsp_project.c:247-276 *)
Definition name_of (k : kind) (n : bytes) : option bytes :=
  match k with KFunction | KVarDecl | KConst | KStruct | KVar | KCall true => Some n | _ => None end.
(** lsp_index_add_def, 45-63; the def position of a definition stays 0 (calloc) *)
Definition add_def (k : kind) (n : bytes) (t : tok) (u : bytes) : list range :=
  if t_line t <=? 0 then [] else [Range true (t_line t - 1) (t_col t - 1) (t_col t - 1 + t_len t) 0 0 k (name_of k n) u].
(** lsp_index_add_ref, 65-83; called when the definition token has a line (184-192) *)
Definition add_ref (k : kind) (n : bytes) (t d : tok) (u : bytes) : list range :=
  if (t_line t <=? 0) || (t_line d <=? 0) then []
  else [Range false (t_line t - 1) (t_col t - 1) (t_col t - 1 + t_len t) (t_line d - 1) (t_col d - 1) k (name_of k n) u].
(** lsp_walk_node, 117-255 *)
Fixpoint walk (n : tree) : list range :=
  match n with T k nm t d _ u kids =>
    let below := flat_map walk kids in
    match k with
    | KFunction | KVarDecl | KConst => add_def k nm t u ++ below ++ add_ref k nm t d u
    | KStruct | KEnum | KAlias | KTrait => add_def k nm t u ++ add_ref k nm t d u
    | KVar | KOpaque => add_ref k nm t d u
    | KCall _ | KWalked => add_ref k nm t d u ++ below
    end
  end.
(** the hover texts are printed into 256 bytes (124-181): fn NAME(...) -> RET, var NAME, const NAME,
    opaque struct NAME, enum NAME, alias NAME = TYPE, trait NAME.  [hover] is all but the name. *)
Fixpoint hovers_fit (n : tree) : bool :=
  match n with T k nm _ _ h _ kids =>
    match k with
    | KFunction | KVarDecl | KConst => (length nm + length h + 1 <=? 256)%nat && forallb hovers_fit kids
    | KStruct | KEnum | KAlias | KTrait => (length nm + length h + 1 <=? 256)%nat
    | KVar | KOpaque => true
    | KCall _ | KWalked => forallb hovers_fit kids
    end
  end.

(** ** The project: the newest file first *)
Definition project : Type := list (bytes * list range).
(** lsp_project_get_file, 105-121 *)
Fixpoint get_file (p : project) (uri : bytes) : option (list range) :=
  match p with [] => None | (u, idx) :: r => if beq_bytes u uri then Some idx else get_file r uri end.
Fixpoint set_file (p : project) (uri : bytes) (idx : list range) : project :=
  match p with [] => [] | (u, i) :: r => if beq_bytes u uri then (u, idx) :: r else (u, i) :: set_file r uri idx end.
(** lsp_project_update_file, 142-186 *)
Definition update (p : project) (uri : bytes) (root : tree) : res project :=
  if hovers_fit root then
    match get_file p uri with
    | Some _ => Ok (set_file p uri (walk root))
    | None => Ok ((uri, walk root) :: p)
    end
  else UB.

(** lsp_find_at, lsp_index.c:85-113: the last range that contains the position, its end included *)
Definition contains (line col : Z) (r : range) : bool :=
  (line =? r_line r) && (r_col r <=? col) && (col <=? r_end r).
Definition find_at (idx : list range) (line col : Z) : option range := List.find (contains line col) (rev idx).

Definition named (n : bytes) (r : range) : bool := match r_name r with Some m => beq_bytes m n | None => false end.
Definition is_definition (r : range) : bool := r_def r && match r_kind r with KFunction | KVarDecl | KConst | KStruct => true | _ => false end.
(** lsp_project_find_definition, 188-233 *)
Fixpoint find_definition (p : project) (n : bytes) : option (bytes * range) :=
  match p with
  | [] => None
  | (u, idx) :: rest =>
    match List.find (fun r => is_definition r && named n r) idx with Some r => Some (u, r) | None => find_definition rest n end
  end.
(** lsp_project_find_references, 236-316 *)
Definition find_references (p : project) (n : bytes) : list (bytes * range) :=
  flat_map (fun '(u, idx) => map (pair u) (filter (named n) idx)) p.

(** lsp_goto_definition, 142-236: the file and the start and end of what is found *)
Definition goto (p : project) (uri : bytes) (line col : Z) : option (bytes * Z * Z * Z) :=
  match get_file p uri with
  | None => None
  | Some idx =>
    match find_at idx line col with
    | None => None
    | Some r =>
      if r_def r then Some (uri, r_line r, r_col r, r_end r)
      else if match find_at idx (r_dline r) (r_dcol r) with Some d => r_def d | None => false end
      then Some (uri, r_dline r, r_dcol r, r_dcol r)
      else match r_kind r, r_name r with
           | KVar, Some n | KCall _, Some n =>
             match find_definition p n with Some (u, d) => Some (u, r_line d, r_col d, r_end d) | None => None end
           | _, _ => None
           end
    end
  end.

(** ** Rename: lsp_analysis.c:1013-1134 *)
(** get_symbol_at: the first range with a name that contains the position *)
Definition symbol_at (idx : list range) (line col : Z) : option bytes :=
  match List.find (fun r => contains line col r && match r_name r with Some _ => true | None => false end) idx with
  | Some r => r_name r | None => None end.
Definition lower (c : N) : N := if ((65 <=? c) && (c <=? 90))%N then (c + 32)%N else c.
(** cJSON.c:135-156 *)
Definition same_nocase (a b : bytes) : bool := beq_bytes (map lower a) (map lower b).
Definition edit : Type := (Z * Z * Z * bytes).       (* line, start, end, new text *)
(** cJSON_GetObjectItem and cJSON_AddItemToArray: the edit goes to the first member of that name *)
Fixpoint add_edit (changes : list (bytes * list edit)) (uri : bytes) (e : edit) : list (bytes * list edit) :=
  match changes with
  | [] => [(uri, [e])]
  | (u, es) :: rest => if same_nocase uri u then (u, es ++ [e]) :: rest else (u, es) :: add_edit rest uri e
  end.
Definition edit_of (new : bytes) (r : range) : edit := (r_line r, r_col r, r_end r, new).
Definition rename (p : project) (uri : bytes) (line col : Z) (new : bytes) : option (list (bytes * list edit)) :=
  match match get_file p uri with Some idx => symbol_at idx line col | None => None end with
  | None => None
  | Some n => match find_references p n with
              | [] => None
              | refs => Some (fold_left (fun ch '(u, r) => add_edit ch u (edit_of new r)) refs [])
              end
  end.
