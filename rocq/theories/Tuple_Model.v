(** Model of tuples: the signature and the name of a tuple type (parser_type.c:742-775,
    parser_struct.c:1131-1175, parser_expr.c:3738-3785), the struct made for it
    (parser_utils.c:996-1060, codegen_decl.c:1240-1264), where it stands in the output
    (codegen_decl.c:1219-1291), tuple literals without a declared type (parser_expr.c:3785-3830)
    and with one (parser_type.c:1041-1101), and destructuring (codegen_stmt.c:858-864, 926-941).

    Strings are lists of bytes without NUL; writing beyond a fixed array is [UB]; zpanic_at is
    [Panic].  Simplifications: the name of an element type is what type_to_string or infer_type
    gave for it; an element of an untyped literal carries the text sprintf prints for its value;
    memory for xmalloc and xrealloc suffices. *)
From Verif Require Import Common.

(** strstr(current, "__") again and again: the pieces between separators
    (parser_utils.c:1021-1056, codegen_decl.c:1246-1262) *)
Definition cons_hd (c : N) (l : list bytes) : list bytes := match l with [] => [[c]] | p :: q => (c :: p) :: q end.
Fixpoint pieces (s : bytes) : list bytes :=
  match s with
  | [] => [[]]
  | a :: t => match t with
              | [] => [[a]]
              | b :: r => if (a =? 95)%N && (b =? 95)%N then [] :: pieces r else cons_hd a (pieces t)
              end
  end.

(** strcat into an array of [cap] bytes *)
Definition strcat (cap : nat) (buf s : bytes) : res bytes :=
  if (length buf + length s + 1 <=? cap)%nat then Ok (buf ++ s) else UB.
Definition sep : bytes := bs "__".
(** parser_type.c:745-763 (cap 256) and parser_expr.c:3771-3780 (cap 512) *)
Fixpoint sig_from (cap : nat) (sig : bytes) (ts : list bytes) : res bytes :=
  match ts with
  | [] => Ok sig
  | t :: r => do sig <- strcat cap sig t;
    match r with [] => Ok sig | _ => do sig <- strcat cap sig sep; sig_from cap sig r end
  end.
Definition sig_of_type (ts : list bytes) : res bytes := sig_from 256 [] ts.
(** parser_expr.c:3741-3762: sixteen elements at most *)
Definition sig_of_literal (ts : list bytes) : res bytes :=
  if (16 <? length ts)%nat then UB else sig_from 512 [] ts.
(** parser_struct.c:1138-1163: the payload of an enum variant, with checks *)
Fixpoint sig_variant_rest (sig : bytes) (ts : list bytes) : res bytes :=
  match ts with
  | [] => Ok sig
  | t :: r => do sig <- strcat 512 sig sep;
    if (510 <? length sig + length t + 2)%nat then Panic else do sig <- strcat 512 sig t; sig_variant_rest sig r
  end.
Definition sig_of_variant (t : bytes) (ts : list bytes) : res bytes :=
  if (250 <? length t)%nat then Panic else do sig <- strcat 512 [] t; sig_variant_rest sig ts.

Definition tuple_name (sig : bytes) : bytes := bs "Tuple_" ++ sig.
(** register_tuple, 996-1060: the signatures seen, the newest first; the field types of one *)
Definition register (used : list bytes) (sig : bytes) : list bytes :=
  if existsb (beq_bytes sig) used then used else sig :: used.
Definition field_types (sig : bytes) : list bytes := pieces sig.      (* field i is named v<i> *)

(** codegen_decl.c:1219-1291: what stands before the definitions of the structs, in order *)
Inductive item := ISlice (elem : bytes) | ITuple (sig : bytes) | ITypedef (name : bytes).
Definition emission (slices tuples structs : list bytes) : list item :=
  map ISlice (rev slices) ++ map ITuple tuples ++ map ITypedef structs.

(** ** Literals without a declared type: parser_expr.c:3787-3829 *)
Inductive elem := EInt (text : bytes) | EFloat (text : bytes) | EStr (text : bytes) | EChar (text : bytes) | EVar (name : bytes) | EOther (text : bytes).
Definition quoted (s : bytes) : bytes := 34%N :: s ++ [34%N].
Definition sprintf256 (s : bytes) : res bytes := if (length s + 1 <=? 256)%nat then Ok s else UB.
Definition elem_code (e : elem) : res bytes :=
  match e with
  | EInt t => sprintf256 t
  | EFloat t => sprintf256 t
  | EStr s => sprintf256 (quoted s)
  | EChar _ => Ok (bs "0")
  | EVar n => Ok n
  | EOther _ => Ok (bs "/* complex expr */0")
  end.
Fixpoint literal_rest (code : bytes) (first : bool) (es : list elem) : res bytes :=
  match es with
  | [] => strcat 4096 code (bs "}")
  | e :: r => do code <- (if first then Ok code else strcat 4096 code (bs ", "));
    do t <- elem_code e; do code <- strcat 4096 code t; literal_rest code false r
  end.
Definition literal (name : bytes) (es : list elem) : res bytes :=
  literal_rest (firstn 4095 (bs "(" ++ name ++ bs "){")) true es.

(** ** Literals with a declared type: parser_type.c:1041-1101 *)
Inductive kind := KLp | KRp | KComma | KOther.
Record tok := Tok { tk_kind : kind; tk_text : bytes }.     (* with the white space before it *)
(** 1067-1086: the source text up to a comma or parenthesis outside parentheses, or the end *)
Fixpoint element (d : Z) (ts : list tok) : bytes * list tok :=
  match ts with
  | [] => ([], [])
  | t :: r =>
    if (d =? 0)%Z && match tk_kind t with KComma | KRp => true | _ => false end then ([], ts)
    else let d' := match tk_kind t with KLp => (d + 1)%Z | KRp => (d - 1)%Z | _ => d end in
         let '(s, rest) := element d' r in (tk_text t ++ s, rest)
  end.
(** 1088-1096.  [c] has room for [cap] bytes; it is made twice as large at most once *)
Definition put (c : bytes) (cap : nat) (s : bytes) : res (bytes * nat) :=
  let cap := if (cap <? length c + length s + 5)%nat then (cap * 2)%nat else cap in
  do c <- (match c with [] => Ok c | _ => strcat cap c (bs ", ") end);
  do c <- strcat cap c s; Ok (c, cap).
Fixpoint typed_loop (fuel : nat) (c : bytes) (cap : nat) (ts : list tok) : res (bytes * list tok) :=
  match fuel with
  | O => Fuel
  | S fuel =>
    match ts with
    | Tok KRp _ :: r => Ok (c, r)
    | Tok KComma _ :: r => typed_loop fuel c cap r
    | _ => let '(s, rest) := element 0 ts in
           do '(c, cap) <- put c cap s; typed_loop fuel c cap rest
    end
  end.
(** the tokens after the opening parenthesis *)
Definition typed_literal (fuel : nat) (name : bytes) (ts : list tok) : res (bytes * list tok) :=
  do '(c, rest) <- typed_loop fuel [] 128 ts; Ok (bs "(" ++ name ++ bs "){" ++ c ++ bs "}", rest).

(** ** Destructuring: codegen_stmt.c:858-864, 926-941.  One variable after the other *)
Fixpoint destructure {V} (env : list (bytes * V)) (names : list bytes) (tuple : list V) : option (list (bytes * V)) :=
  match names, tuple with
  | [], _ => Some env
  | n :: ns, v :: vs => destructure ((n, v) :: env) ns vs
  | _ :: _, [] => None                                    (* no such field: the C compiler's error *)
  end.
