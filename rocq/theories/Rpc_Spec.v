(** Messages of the Language Server Protocol, and what is expected of a server. *)
From Verif Require Import Common Rpc_Model.
Local Open Scope Z_scope.

Definition request (id : json) (m : bytes) (params : json) : json :=
  JObj [(bs "jsonrpc", JStr (bs "2.0")); (bs "id", id); (bs "method", JStr m); (bs "params", params)].
Definition notification (m : bytes) (params : json) : json :=
  JObj [(bs "jsonrpc", JStr (bs "2.0")); (bs "method", JStr m); (bs "params", params)].
(** the place of a request *)
Definition at_pos (uri : bytes) (line col : Z) (more : list (bytes * json)) : json :=
  JObj ([(bs "textDocument", JObj [(bs "uri", JStr uri)]); (bs "position", JObj [(bs "line", JNum line); (bs "character", JNum col)])] ++ more).
(** opening a file, changing it (the server asked for whole texts), closing it *)
Definition did_open (uri text : bytes) : json :=
  notification (bs "textDocument/didOpen")
    (JObj [(bs "textDocument", JObj [(bs "uri", JStr uri); (bs "languageId", JStr (bs "zc")); (bs "version", JNum 1); (bs "text", JStr text)])]).
Definition did_change (uri : bytes) (texts : list bytes) : json :=
  notification (bs "textDocument/didChange")
    (JObj [(bs "textDocument", JObj [(bs "uri", JStr uri); (bs "version", JNum 2)]);
           (bs "contentChanges", JArr (map (fun t => JObj [(bs "text", JStr t)]) texts))]).
Definition did_close (uri : bytes) : json :=
  notification (bs "textDocument/didClose") (JObj [(bs "textDocument", JObj [(bs "uri", JStr uri)])]).
Definition int_id (id : Z) : Prop := -2147483648 <= id <= 2147483647.

(** edits of an editing session *)
Inductive event := Open (uri text : bytes) | Change (uri text : bytes).
Definition message (v : event) : json := match v with Open u t => did_open u t | Change u t => did_change u [t] end.
Definition ev_uri (v : event) : bytes := match v with Open u _ | Change u _ => u end.
Definition ev_text (v : event) : bytes := match v with Open _ t | Change _ t => t end.
(** the text the editor has for a file: the last it sent *)
Fixpoint last_text (evs : list event) (uri : bytes) (before : option bytes) : option bytes :=
  match evs with [] => before | v :: r => last_text r uri (if beq_bytes (ev_uri v) uri then Some (ev_text v) else before) end.

(** the requests the server offers in its capabilities *)
Definition place_requests : list bytes := [bs "textDocument/definition"; bs "textDocument/hover"; bs "textDocument/completion"].
Definition file_requests : list bytes := [bs "textDocument/documentSymbol"; bs "textDocument/references"; bs "textDocument/semanticTokens/full"].
Definition methods : list bytes :=
  [bs "initialize"; bs "textDocument/didOpen"; bs "textDocument/didChange"; bs "textDocument/signatureHelp"; bs "textDocument/rename"] ++ place_requests ++ file_requests.
