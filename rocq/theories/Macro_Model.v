(** Model of plugin blocks: [name! { ... }] and [plugin name ... end] in
    src/parser/parser_stmt.c, the table of plugins in src/plugins/plugin_manager.c and the
    imported names in src/parser/parser_utils.c.

    The lexer is the one of Lexer_Model.v.  The arrays are buffers with their bounds: a
    write outside, or reading a byte never written, is [UB].  A plugin is its name and the
    function from the text of the block to the text put in its place; opening a library
    file ([z_dlopen], [z_dlsym] and the plugin's own [z_plugin_init]) is an oracle [load]
    from the path to the plugin.  [zpanic_at] and [exit(1)] are [Panic].  The temporary
    file that captures the output of the plugin is not modelled. *)
From Verif Require Import Common Lexer_Model.
Local Open Scope nat_scope.

(** parser_stmt.c:2109, 4122: [xmalloc(8192)] *)
Definition body_cap : nat := N.to_nat 8192.

(** The text of a token, [t.start] with [t.len] *)
Definition tok_text (src : bytes) (t : token) : bytes := firstn (tlen t) (skipn (tpos t) src).

(** strlen of an array *)
Fixpoint bstrlen (b : buf N) : res nat :=
  match b with
  | Some c :: r => if N.eqb c 0 then Ok 0 else do n <- bstrlen r; Ok (S n)
  | _ => UB
  end.

(** Writing consecutive bytes *)
Fixpoint bwrite (b : buf N) (i : nat) (s : bytes) : res (buf N) :=
  match s with
  | [] => Ok b
  | c :: s => do b <- bset b i c; bwrite b (S i) s
  end.

(** strncat(b, s, strlen(s)): append after the terminator found, and terminate *)
Definition bstrncat (b : buf N) (s : bytes) : res (buf N) :=
  do k <- bstrlen b; bwrite b k (s ++ [0%N]).

(** parser_stmt.c:2129-2149: one token into the body of a block *)
Definition put_token (src : bytes) (t : token) (b : buf N) (body_len last_line : nat) : res (buf N * nat) :=
  if body_len + tlen t + 2 <? body_cap then
    let sep := if last_line <? tline t then 10%N else 32%N in
    do b <- bwrite b body_len [sep; 0%N];
    let body_len := S body_len in
    do b <- bstrncat b (tok_text src t);
    Ok (b, body_len + tlen t)
  else Ok (b, body_len).

(** parser_stmt.c:2115-2154, with [fuel] tokens at most *)
Fixpoint collect (fuel : nat) (l : lexer) (b : buf N) (body_len depth last_line : nat) : res (buf N * lexer) :=
  match fuel with
  | 0 => Fuel
  | S fuel =>
    do '(t, l') <- lexer_next l;
    match tk t with
    | TOK_EOF => Panic
    | _ =>
      let depth :=
        match tk t with TOK_LBRACE => S depth | TOK_RBRACE => pred depth | _ => depth end in
      if depth =? 0 then Ok (b, l')
      else
        do '(b, body_len) <- put_token (lsrc l) t b body_len last_line;
        collect fuel l' b body_len depth (tline t)
    end
  end.

(** parser_stmt.c:2108-2154: from the token after the opening brace; [start_line] is the
    line of the exclamation mark *)
Definition macro_body (l : lexer) (start_line : nat) : res (buf N * lexer) :=
  do b <- bset (bnew body_cap) 0 0%N;
  collect (S (length (lsrc l))) l b 0 1 start_line.

(** parser_stmt.c:4126-4151: the body of [plugin name ... end], with [fuel] tokens *)
Fixpoint collect_end (fuel : nat) (l : lexer) (b : buf N) (body_len : nat) : res (buf N * lexer) :=
  match fuel with
  | 0 => Fuel
  | S fuel =>
    do '(t, l') <- lexer_next l;
    match tk t with
    | TOK_EOF => Panic
    | _ =>
      if (match tk t with TOK_IDENT => true | _ => false end) && (tlen t =? 3)
         && is_prefix (bs "end") (skipn (tpos t) (lsrc l))
      then Ok (b, l')
      else if body_len + tlen t + 2 <? body_cap then
        do b <- bstrncat b (tok_text (lsrc l) t);
        do b <- bwrite b (body_len + tlen t) [32%N; 0%N];
        collect_end fuel l' b (body_len + tlen t + 1)
      else collect_end fuel l' b body_len
    end
  end.
Definition plugin_body (l : lexer) : res (buf N * lexer) :=
  do b <- bset (bnew body_cap) 0 0%N;
  collect_end (S (length (lsrc l))) l b 0.

(** The C string in an array *)
Fixpoint bstr (b : buf N) : bytes :=
  match b with
  | Some c :: r => if N.eqb c 0 then [] else c :: bstr r
  | _ => []
  end.

(** zprep_plugin.h ZPlugin: the name the plugin gives itself, and its function *)
Record plugin := Plugin { p_name : bytes; p_fn : bytes -> res bytes }.

(** plugin_manager.c:75-87 *)
Definition find_plugin (head : list plugin) (name : bytes) : option plugin :=
  find (fun p => beq_bytes (p_name p) name) head.

(** plugin_manager.c:24-41 *)
Definition register_builtin (head : list plugin) (p : plugin) : list plugin :=
  match find_plugin head (p_name p) with Some _ => head | None => p :: head end.

(** The compiler's state: loaded plugins (plugin_manager.c:16) and imported names
    (parser.h ImportedPlugin), both with the newest first *)
Record pstate := PS { loaded : list plugin; imported : list (bytes * option bytes) }.

Section Load.
  Variable load : bytes -> option plugin.
  Variables (ext run_prefix : bytes).

  (** plugin_manager.c:43-73 *)
  Definition load_plugin (head : list plugin) (path : bytes) : option (plugin * list plugin) :=
    match load path with Some p => Some (p, p :: head) | None => None end.

  (** parser_utils.c:4274-4319; the snprintf into path[1024] keeps 1023 bytes *)
  Definition register_plugin (s : pstate) (name : bytes) (alias : option bytes) : res pstate :=
    let found :=
      match find_plugin (loaded s) name with
      | Some p => Some (p, loaded s)
      | None =>
        match load_plugin (loaded s) name with
        | Some r => Some r
        | None =>
          match load_plugin (loaded s) (firstn 1023 (name ++ ext)) with
          | Some r => Some r
          | None =>
            if existsb (N.eqb 47) name then None
            else load_plugin (loaded s) (firstn 1023 (run_prefix ++ name ++ ext))
          end
        end
      end in
    match found with
    | None => Panic
    | Some (p, l) => Ok (PS l ((p_name p, alias) :: imported s))
    end.
End Load.

(** parser_utils.c:4321-4337 *)
Fixpoint resolve_plugin (imp : list (bytes * option bytes)) (name : bytes) : option bytes :=
  match imp with
  | [] => None
  | (n, a) :: imp =>
    if match a with Some a => beq_bytes a name | None => false end then Some n
    else if beq_bytes n name then Some n
    else resolve_plugin imp name
  end.

(** parser_stmt.c:2093-2209, from the token after the opening brace *)
Definition macro_call (s : pstate) (name : bytes) (l : lexer) (start_line : nat) : res (bytes * lexer) :=
  do '(b, l') <- macro_body l start_line;
  match resolve_plugin (imported s) name with
  | None => Panic
  | Some pn =>
    match find_plugin (loaded s) pn with
    | None => Panic
    | Some p => do out <- p_fn p (bstr b); Ok (out, l')
    end
  end.

(** parser_stmt.c:4106-4162 with codegen.c:1375-1391: what [plugin name ... end] becomes *)
Definition plugin_block (s : pstate) (name : bytes) (l : lexer) : res (bytes * lexer) :=
  do '(b, l') <- plugin_body l;
  match find_plugin (loaded s) name with
  | Some p => do out <- p_fn p (bstr b); Ok (out, l')
  | None => Ok (bs "/* Unknown plugin: " ++ name ++ bs " */" ++ [10%N], l')
  end.
