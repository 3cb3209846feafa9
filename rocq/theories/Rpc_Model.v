(** Model of the dispatch of the language server: src/lsp/json_rpc.c:19-289 (handle_request), with
    the parts of lsp_analysis.c that decide whether there is a response (59-140, 142-153, 238-247,
    408-416, 778-792, 813-820, 1060-1085), lsp_project.c:10-35, 105-186 (the files), and
    cJSON_GetObjectItem (cJSON.c:1968-2008).

    A message is a JSON value (cJSON_Parse is given); numbers are integers.  What a handler puts in
    its result is given ([e_answer]), as are the files a directory has ([e_scan]).  A file is its
    address and its text.  Simplifications: memory suffices; the parser returns for every text; contentChanges is an array. *)
From Verif Require Import Common.
Local Open Scope Z_scope.

Inductive json := JNull | JBool (b : bool) | JNum (z : Z) | JStr (s : bytes) | JArr (l : list json) | JObj (l : list (bytes * json)).
Definition lower (c : N) : N := if ((65 <=? c) && (c <=? 90))%N then (c + 32)%N else c.
(** case_insensitive_strcmp, cJSON.c:135-156 *)
Definition same_nocase (a b : bytes) : bool := beq_bytes (map lower a) (map lower b).
Fixpoint member (l : list (bytes * json)) (k : bytes) : option json :=
  match l with [] => None | (n, v) :: r => if same_nocase k n then Some v else member r k end.
(** cJSON_GetObjectItem; a missing object has no members *)
Definition get (j : option json) (k : bytes) : option json := match j with Some (JObj l) => member l k | _ => None end.
(** item->valueint (cJSON.c:393-404, 1414), item->valuestring *)
Definition valueint (j : json) : Z :=
  match j with JNum z => if 2147483647 <=? z then 2147483647 else if z <=? -2147483648 then -2147483648 else z | JBool true => 1 | _ => 0 end.
Definition valuestring (j : option json) : option bytes := match j with Some (JStr s) => Some s | _ => None end.

Definition files : Type := list (bytes * bytes).      (* address, text; the newest first *)
Definition state : Type := option files.              (* g_project *)
Inductive out :=
| Response (id : Z) (result : json)
| Diagnostics (uri : bytes).                          (* textDocument/publishDiagnostics *)
Record env := Env { e_cwd : bytes; e_scan : bytes -> files;
                    e_answer : files -> bytes -> bytes -> Z -> Z -> bytes -> json }.

Fixpoint text_of (fs : files) (uri : bytes) : option bytes :=
  match fs with [] => None | (u, t) :: r => if beq_bytes u uri then Some t else text_of r uri end.
Fixpoint set_text (fs : files) (uri t : bytes) : files :=
  match fs with [] => [(uri, t)] | (u, s) :: r => if beq_bytes u uri then (u, t) :: r else (u, s) :: set_text r uri t end.
(** lsp_project_update_file, 142-186: a new file goes to the front *)
Definition update (fs : files) (uri t : bytes) : files :=
  match text_of fs uri with Some _ => set_text fs uri t | None => (uri, t) :: fs end.
(** lsp_project_init, 10-35 *)
Definition init (e : env) (st : state) (root : bytes) : files :=
  match st with Some fs => fs | None => fold_left (fun fs '(u, t) => update fs u t) (e_scan e root) [] end.

(** get_params, 19-52 *)
Definition uri_of (params : option json) : option bytes := valuestring (get (get params (bs "textDocument")) (bs "uri")).
Definition pos_of (params : option json) (k : bytes) : Z :=
  match get (get params (bs "position")) k with Some v => valueint v | None => 0 end.

Definition known (st : state) (uri : bytes) : bool :=
  match st with Some fs => match text_of fs uri with Some _ => true | None => false end | None => false end.
Definition files_of (st : state) : files := match st with Some fs => fs | None => [] end.
(** a request for a place in a file, answered always, or (144-152, 242-246, 411-414) only if the file is known *)
Definition ask (e : env) (st : state) (id : Z) (m : bytes) (params : option json) (only_known : bool) (arg : bytes) : list out :=
  match uri_of params with
  | None => []
  | Some uri => if only_known && negb (known st uri) then []
                else [Response id (e_answer e (files_of st) m uri (pos_of params (bs "line")) (pos_of params (bs "character")) arg)]
  end.
Definition strip_file (s : bytes) : bytes := if is_prefix (bs "file://") s then skipn 7 s else s.

(** handle_request, 54-289 *)
Definition handle (e : env) (st : state) (msg : json) : state * list out :=
  let j := Some msg in
  let id := match get j (bs "id") with Some v => valueint v | None => 0 end in
  let params := get j (bs "params") in
  match valuestring (get j (bs "method")) with
  | None => (st, [])
  | Some m =>
    if beq_bytes m (bs "initialize") then                                                         (* 78-139 *)
      let root := match valuestring (get params (bs "rootPath")) with
                  | Some r => Some r | None => valuestring (get params (bs "rootUri")) end in
      (Some (init e st (match root with Some r => strip_file r | None => bs "." end)), [Response id (e_answer e [] m [] 0 0 [])])
    else if beq_bytes m (bs "textDocument/didOpen") || beq_bytes m (bs "textDocument/didChange") then  (* 140-171 *)
      let doc := get params (bs "textDocument") in
      let text := match get doc (bs "text") with
                  | Some t => Some t
                  | None => if beq_bytes m (bs "textDocument/didChange") then
                              match get params (bs "contentChanges") with
                              | Some (JArr (c :: _)) => get (Some c) (bs "text")
                              | _ => None end
                            else None
                  end in
      match doc, valuestring (get doc (bs "uri")), valuestring text with
      | Some _, Some uri, Some t => (Some (update (init e st (e_cwd e)) uri t), [Diagnostics uri])
      | _, _, _ => (st, [])
      end
    else if beq_bytes m (bs "textDocument/definition") || beq_bytes m (bs "textDocument/hover") || beq_bytes m (bs "textDocument/completion")
    then (st, ask e st id m params true [])                                                       (* 172-204 *)
    else if beq_bytes m (bs "textDocument/documentSymbol") || beq_bytes m (bs "textDocument/references")
    then (st, ask e st id m params false [])                                                      (* 205-226 *)
    else if beq_bytes m (bs "textDocument/signatureHelp") then (st, [])                           (* 227-236: uri is NULL *)
    else if beq_bytes m (bs "textDocument/semanticTokens/full")
    then (st, ask e st id m params false [])                                                      (* 237-271 *)
    else if beq_bytes m (bs "textDocument/rename") then                                           (* 272-286 *)
      match valuestring (get params (bs "newName")) with
      | Some nn => (st, ask e st id m params false nn)
      | None => (st, [])
      end
    else (st, [])
  end.
Definition run (e : env) (st : state) (msgs : list json) : state * list out :=
  fold_left (fun '(st, o) m => let '(st, o') := handle e st m in (st, o ++ o')) msgs (st, []).
