(** Model of [comptime { ... }] blocks: run_comptime_block and the statement form in
    src/parser/parser_stmt.c.

    The lexer is the one of Lexer_Model.v.  A declaration or statement of the block is its
    kind and the C text the code generator prints for it; parsing the block is not modelled
    here.  The C compiler ([cc], success or not) and running a program ([exec], its output
    and exit status) are oracles of the program's text.  The file system maps names to
    contents; several compilers working in one directory take their steps in any order.
    Simplifications: opening a file for writing succeeds; the shell's own failures are only
    those of a missing or unusable program; the fallback directories of load_file are empty. *)
From Verif Require Import Common Lexer_Model.
Local Open Scope nat_scope.

(** parser_stmt.c:3899-3917: reading up to the brace that closes the block, with [fuel]
    tokens at most *)
Fixpoint skip_block (fuel : nat) (l : lexer) (depth : nat) : res lexer :=
  match fuel with
  | 0 => Fuel
  | S fuel =>
    do '(t, l') <- lexer_next l;
    match tk t with
    | TOK_EOF => Panic
    | _ =>
      let depth :=
        match tk t with TOK_LBRACE => S depth | TOK_RBRACE => pred depth | _ => depth end in
      if depth =? 0 then Ok l' else skip_block fuel l' depth
    end
  end.

(** parser_stmt.c:3899-3923: the text of the block, from the token after the opening brace *)
Definition block_text (l : lexer) : res (bytes * lexer) :=
  do l' <- skip_block (S (length (lsrc l))) l 1;
  Ok (firstn (lpos l' - 1 - lpos l) (skipn (lpos l) (lsrc l)), l').

(** parser_stmt.c:3925-3928 *)
Definition wrapped (code : bytes) : bytes := bs "{ " ++ code ++ bs " }".

(** The kinds of nodes told apart in parser_stmt.c:3969-4010 and 4027-4039 *)
Inductive kind := KInclude | KStruct | KEnum | KConst | KFunction | KImpl | KExpr | KStmt.
Definition item : Type := kind * bytes.

Definition nl : bytes := [10%N].

(** parser_stmt.c:3965-4010: what is written at once, and what is kept for main *)
Fixpoint split_items (out : bytes) (stmts : list item) (l : list item) : bytes * list item :=
  match l with
  | [] => (out, stmts)
  | (k, c) :: l =>
    match k with
    | KInclude | KStruct | KEnum | KConst | KFunction => split_items (out ++ c) stmts l
    | KImpl => split_items out stmts l
    | _ => split_items out (stmts ++ [(k, c)]) l
    end
  end.

(** parser_stmt.c:4012-4025: [@comptime] functions of the program, each with its
    signature and its definition *)
Definition shared_fun (f : bytes * bytes) : bytes := fst f ++ bs ";" ++ nl ++ snd f.

(** parser_stmt.c:4027-4039 *)
Definition main_item (i : item) : bytes :=
  match fst i with KExpr => snd i ++ bs ";" ++ nl | _ => snd i end.

(** parser_stmt.c:3945-4041: the program written; [pre] is the preamble and the helpers *)
Definition program (pre : bytes) (block : list item) (shared : list (bytes * bytes)) : bytes :=
  let '(top, stmts) := split_items [] [] block in
  pre ++ top ++ flat_map shared_fun shared ++ bs "int main() {" ++ nl
  ++ flat_map main_item stmts ++ bs "return 0;" ++ nl ++ bs "}" ++ nl.

(** parser_stmt.c:2361-2391 with codegen_stmt.c:951-963: the text of the statements that a
    comptime statement is replaced with *)
Definition spliced (stmts : list bytes) : bytes :=
  match stmts with
  | [s] => s
  | _ => bs "    {" ++ nl ++ concat stmts ++ bs "    }" ++ nl
  end.

(** ** Files *)
Inductive content := Text (b : bytes) | Binary (prog : bytes).
Definition fs : Type := bytes -> option content.
Definition put (m : fs) (n : bytes) (c : option content) : fs :=
  fun x => if beq_bytes x n then c else m x.

(** parser_stmt.c:3942, 4046, 4064: the three names; the first is [_tmp_comptime_N.c]
    with the decimal digits of a random number *)
Definition src_name (digits : bytes) : bytes := bs "_tmp_comptime_" ++ digits ++ bs ".c".
Definition bin_name (digits : bytes) : bytes := src_name digits ++ bs ".bin".
Definition out_name (digits : bytes) : bytes := src_name digits ++ bs ".out".

(** Where one compiler is in parser_stmt.c:3943-4088 *)
Inductive stage :=
  | Begin | Written | Compiled | Ran | Loaded (o : bytes) | NoSrc (o : bytes) | NoBin (o : bytes)
  | Done (o : bytes) | Failed.
Record proc := P { digits : bytes; prog : bytes; at_ : stage }.

Section Oracles.
  Variable cc : bytes -> bool.
  Variable exec : bytes -> bytes * Z.

  (** parser_stmt.c:3943-4088, one step of one compiler *)
  Definition step1 (m : fs) (p : proc) : fs * stage :=
    match at_ p with
    | Begin => (put m (src_name (digits p)) (Some (Text (prog p))), Written)
    | Written =>
      match m (src_name (digits p)) with
      | Some (Text c) =>
        if cc c then (put m (bin_name (digits p)) (Some (Binary c)), Compiled) else (m, Failed)
      | _ => (m, Failed)
      end
    | Compiled =>
      match m (bin_name (digits p)) with
      | Some (Binary c) =>
        let '(o, status) := exec c in
        (put m (out_name (digits p)) (Some (Text o)), if (status =? 0)%Z then Ran else Failed)
      | _ => (put m (out_name (digits p)) (Some (Text [])), Failed)
      end
    | Ran =>
      match m (out_name (digits p)) with
      | Some (Text o) => (m, Loaded o)
      | Some (Binary c) => (m, Loaded c)
      | None => (m, Loaded [])
      end
    | Loaded o => (put m (src_name (digits p)) None, NoSrc o)
    | NoSrc o => (put m (bin_name (digits p)) None, NoBin o)
    | NoBin o => (put m (out_name (digits p)) None, Done o)
    | Done o => (m, Done o)
    | Failed => (m, Failed)
    end.

  Definition world : Type := fs * list proc.

  (** The [i]th compiler takes a step *)
  Definition step (w : world) (i : nat) : world :=
    match nth_error (snd w) i with
    | None => w
    | Some p =>
      let '(m, st) := step1 (fst w) p in
      (m, firstn i (snd w) ++ P (digits p) (prog p) st :: skipn (S i) (snd w))
    end.

  Definition run (w : world) (sched : list nat) : world := fold_left step sched w.
End Oracles.
