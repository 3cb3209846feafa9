(** Model of the semantic token encoding (src/lsp/lsp_semantic.c:22-86, 316-368) and of the
    position index of the language server (src/lsp/lsp_index.c:32-113).

    Simplifications: the tokens pushed while walking the tree are a parameter; ints are
    unbounded (positions are line and column numbers of a source file). *)
From Verif Require Import Common.
Local Open Scope Z_scope.

(** lsp_semantic.c:24-31 *)
Record tok := Tok { t_line : Z; t_col : Z; t_len : Z; t_type : Z; t_mods : Z }.
(** lsp_semantic.c:47-64 *)
Definition builder_push (b : list tok) (t : tok) : list tok :=
  if (t_line t <? 0) || (t_col t <? 0) then b else b ++ [t].
(** lsp_semantic.c:72-81 *)
Definition compare_tokens (a b : tok) : Z :=
  if t_line a =? t_line b then t_col a - t_col b else t_line a - t_line b.
(** lsp_semantic.c:339-361, with the previous array element and the previous emitted position *)
Fixpoint encode (before : option tok) (prev_line prev_col : Z) (l : list tok) : list Z :=
  match l with
  | [] => []
  | t :: l' =>
      let dup := match before with
                 | Some u => (t_line t =? t_line u) && (t_col t =? t_col u)
                 | None => false
                 end in
      if dup then encode (Some t) prev_line prev_col l'
      else
        let delta_line := t_line t - prev_line in
        let delta_col := if delta_line =? 0 then t_col t - prev_col else t_col t in
        delta_line :: delta_col :: t_len t :: t_type t :: t_mods t
          :: encode (Some t) (t_line t) (t_col t) l'
  end.
(** lsp_semantic.c:324-331: the walk pushes the tokens one after the other *)
Definition build (pushes : list tok) : list tok := fold_left builder_push pushes [].
(** lsp_semantic.c:333-361, on what qsort returned *)
Definition semantic_data (sorted : list tok) : list Z := encode None 0 0 sorted.

(** * lsp_index.c *)
Record token := Token { k_line : Z; k_col : Z; k_len : Z }.
Record range := Range { start_line : Z; start_col : Z; end_line : Z; end_col : Z;
                        def_pos : option (Z * Z);    (* Some for a reference *)
                        r_node : nat }.
Inductive op := AddDef (t : token) (node : nat) | AddRef (t def_t : token) (node : nat).
(** lsp_index.c:32-43: append to the list *)
Definition index_add (idx : list range) (r : range) : list range := idx ++ [r].
(** lsp_index.c:45-83 *)
Definition step (idx : list range) (o : op) : list range :=
  match o with
  | AddDef t node =>
      if k_line t <=? 0 then idx
      else index_add idx (Range (k_line t - 1) (k_col t - 1) (k_line t - 1) (k_col t - 1 + k_len t) None node)
  | AddRef t d node =>
      if (k_line t <=? 0) || (k_line d <=? 0) then idx
      else index_add idx (Range (k_line t - 1) (k_col t - 1) (k_line t - 1) (k_col t - 1 + k_len t)
                            (Some (k_line d - 1, k_col d - 1)) node)
  end.
Definition run_index (ops : list op) : list range := fold_left step ops [].
(** lsp_index.c:85-113 *)
Fixpoint find_loop (best : option range) (line col : Z) (l : list range) : option range :=
  match l with
  | [] => best
  | r :: l' =>
      if (start_line r <=? line) && (line <=? end_line r) then
        if (line =? start_line r) && (col <? start_col r) then find_loop best line col l'
        else if (line =? end_line r) && (end_col r <? col) then find_loop best line col l'
        else find_loop (Some r) line col l'
      else find_loop best line col l'
  end.
Definition find_at (idx : list range) (line col : Z) : option range := find_loop None line col idx.
