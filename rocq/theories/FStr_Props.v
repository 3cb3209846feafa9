(** C56: interpolated strings. *)
From Verif Require Import Common StrLit_Model StrLit_Spec StrLit_Proofs FStr_Model FStr_Spec FStr_Proofs.
Local Open Scope nat_scope.

Section Props.
Variable expr : Type.
Variable parse : bytes -> option (expr * bytes).
Variable decode : bytes -> bytes.
Variable eval : expr -> cval.
Variable fmt : bytes -> cval -> option bytes.
Variable decimal : Z -> bytes.

(** An interpolated string evaluates to its pieces, one after the other, as long as each
    inserted text is shorter than 128 bytes, the whole is shorter than 4096, and no boolean
    is inserted without a format.  Missing from the full claim: exactly those cases, where
    the program has undefined behaviour ([C56_long_value_refuted], [C56_long_refuted],
    [C56_bool_refuted]), and expressions with a single colon ([C56_ternary_refuted]). *)
Theorem C56_concat_partial ps xs after : decodes decode -> libc_ok decimal fmt -> fstring_ok parse ps ->
  map (piece_text decimal fmt eval) ps = map Some xs ->
  (forall s e f x, In (PExpr s e f) ps -> piece_text decimal fmt eval (PExpr s e f) = Some x -> length x < 128) ->
  (forall s e b, In (PExpr s e None) ps -> eval e <> VBool b) ->
  ~ In 0%N (concat xs) -> length (concat xs) < 4096 ->
  exists l, create_fstring_block parse (flat_map show ps) after = Ok l /\ exec decode eval fmt [] l = Ok (concat xs).
Proof.
  intros D L OK E SZ NB Z T. exists (map (stmt_of expr) ps). split; [now apply block_ok|].
  rewrite (exec_pieces expr parse decode eval fmt decimal D L ps [] xs); auto.
  - cbn [app]. destruct (Nat.ltb_spec (length (concat xs)) 4096); [|lia]. now rewrite orb_true_r.
  - apply OK.
  - apply Forall_forall. intros p I. destruct p as [| | |s e [f|]]; cbn; auto. intros b. eapply NB. eassumption.
Qed.
(** Inserting a text of 128 bytes or more overflows a buffer of the program. *)
Theorem C56_long_value_refuted ps after s e f x : libc_ok decimal fmt -> fstring_ok parse ps ->
  In (PExpr s e f) ps -> piece_text decimal fmt eval (PExpr s e f) = Some x -> 128 <= length x ->
  exists l, create_fstring_block parse (flat_map show ps) after = Ok l /\ exec decode eval fmt [] l = UB.
Proof.
  intros L OK I E SZ. exists (map (stmt_of expr) ps). split; [now apply block_ok|].
  eapply exec_bad; [apply in_map; exact I|]. intros b. cbn [stmt_of exec1]. destruct L as (L1 & L2 & L3 & L4).
  destruct f as [f|]; cbn [option_map piece_text] in *.
  - unfold sprintf_t. rewrite E. destruct (Nat.ltb_spec (length x) 128); [lia|reflexivity].
  - injection E as <-. unfold sprintf_t. destruct (eval e) as [bb|c|z|t]; cbn [z_str value_text length] in *; [rewrite L4; reflexivity|rewrite L2|rewrite L1|rewrite L3].
    + cbn [length]. lia.
    + destruct (Nat.ltb_spec (length (decimal z)) 128); [lia|reflexivity].
    + destruct (Nat.ltb_spec (length t) 128); [lia|reflexivity].
Qed.
(** So does a result of 4096 bytes or more. *)
Theorem C56_long_refuted ps xs after : decodes decode -> libc_ok decimal fmt -> fstring_ok parse ps ->
  map (piece_text decimal fmt eval) ps = map Some xs ->
  (forall s e f x, In (PExpr s e f) ps -> piece_text decimal fmt eval (PExpr s e f) = Some x -> length x < 128) ->
  (forall s e b, In (PExpr s e None) ps -> eval e <> VBool b) ->
  ~ In 0%N (concat xs) -> 4096 <= length (concat xs) ->
  exists l, create_fstring_block parse (flat_map show ps) after = Ok l /\ exec decode eval fmt [] l = UB.
Proof.
  intros D L OK E SZ NB Z T. exists (map (stmt_of expr) ps). split; [now apply block_ok|].
  rewrite (exec_pieces expr parse decode eval fmt decimal D L ps [] xs); auto.
  - cbn [app]. destruct (Nat.ltb_spec (length (concat xs)) 4096); [lia|]. destruct ps; [|reflexivity].
    destruct xs; [|discriminate]. cbn [concat length] in T. lia.
  - apply OK.
  - apply Forall_forall. intros p I. destruct p as [| | |s e [f|]]; cbn; auto. intros b. eapply NB. eassumption.
Qed.
(** Inserting a boolean reads the wrong kind of argument. *)
Theorem C56_bool_refuted ps after s e b : libc_ok decimal fmt -> fstring_ok parse ps ->
  In (PExpr s e None) ps -> eval e = VBool b ->
  exists l, create_fstring_block parse (flat_map show ps) after = Ok l /\ exec decode eval fmt [] l = UB.
Proof.
  intros (_ & _ & _ & L4) OK I E. exists (map (stmt_of expr) ps). split; [now apply block_ok|].
  eapply exec_bad; [apply in_map; exact I|]. intros bb. cbn [stmt_of exec1 option_map]. rewrite E. cbn [z_str]. unfold sprintf_t.
  now rewrite L4.
Qed.
(** An inserted expression that goes on where the expression parser stops, at something
    else than the closing brace or a single colon, is rejected. *)
Theorem C56_rejects t inner e rest r after : no_brace t -> ~ In 125%N inner -> (forall x, inner <> 123%N :: x) ->
  parse (inner ++ 125%N :: r ++ after) = Some (e, rest) ->
  (forall x, rest <> 125%N :: x) -> (forall x, rest = 58%N :: x -> exists y, x = 58%N :: y) ->
  create_fstring_block parse (t ++ 123%N :: inner ++ 125%N :: r) after = Panic.
Proof.
  intros A B C E R1 R2. unfold create_fstring_block. eapply loop_reject; try eassumption.
  destruct rest as [|c x]; [reflexivity|]. cbn [stops_well].
  destruct (N.eqb_spec c 125) as [->|]; [now destruct (R1 x)|].
  destruct (N.eqb_spec c 58) as [->|]; [|reflexivity]. destruct (R2 x eq_refl) as [y ->]. reflexivity.
Qed.
End Props.

(** The colon of a conditional expression is taken for a format: with a parser that reads the
    whole of "a?b:c", the generated call formats its value with "%c". *)
Theorem C56_ternary_refuted (expr : Type) (parse : bytes -> option (expr * bytes)) (e : expr) after :
  (forall r, parse (bs "a?b:c" ++ 125%N :: r) = Some (e, 125%N :: r)) ->
  create_fstring_block parse (bs "{a?b:c}") after = Ok [CatExpr e (Some (bs "%c"))].
Proof.
  intros H. unfold create_fstring_block. cbn [length].
  change (bs "{a?b:c}") with ([] ++ 123%N :: bs "a?b:c" ++ 125%N :: []).
  rewrite (loop_expr expr parse _ [] (bs "a?b:c") e [] after (125%N :: after)).
  - reflexivity.
  - split; intros [].
  - cbn. intuition discriminate.
  - discriminate.
  - apply H.
  - reflexivity.
Qed.
(** Evaluating the same interpolated string again overwrites the string obtained before:
    whenever the two values differ, the first one is lost. *)
Theorem C56_overwritten_refuted (expr : Type) decode (eval1 eval2 : expr -> cval) fmt m site l x1 x2 :
  exec decode eval1 fmt [] l = Ok x1 -> exec decode eval2 fmt [] l = Ok x2 -> x1 <> x2 ->
  exists m1 m2 p, eval_fstring decode eval1 fmt m site l = Ok (m1, p) /\ m1 p = x1 /\
    eval_fstring decode eval2 fmt m1 site l = Ok (m2, p) /\ m2 p <> x1.
Proof.
  intros E1 E2 N. unfold eval_fstring. rewrite E1, E2. cbn [bind].
  eexists _, _, site. split; [reflexivity|]. split; [now rewrite Nat.eqb_refl|]. split; [reflexivity|].
  cbn. rewrite Nat.eqb_refl. congruence.
Qed.

(** A concrete case: the text "n=" , the expression [n] with value 7, braces and [s:5s]. *)
Definition ex_parse (s : bytes) : option (bool * bytes) :=
  match s with c :: r => if (c =? 110)%N then Some (true, r) else if (c =? 115)%N then Some (false, r) else None | [] => None end.
Definition ex_pieces : list (piece bool) :=
  [PText (bs "n=") (bs "n="); PExpr (bs "n") true None; POpen; PText (bs "\t") [9%N]; PClose; PExpr (bs "s") false (Some (bs "5s"))].
Example C56_ex : fstring_ok ex_parse ex_pieces /\ flat_map show ex_pieces = bs "n={n}{{\t}}{s:5s}" /\
  forall after, create_fstring_block ex_parse (bs "n={n}{{\t}}{s:5s}") after =
    Ok [CatText (bs "n="); CatExpr true None; CatText (bs "{"); CatText (bs "\t"); CatText (bs "}"); CatExpr false (Some (bs "%5s"))].
Proof.
  assert (OK : fstring_ok ex_parse ex_pieces).
  { split; [|cbn; auto].
    assert (R : forall c b, (forall r, ex_parse (c :: r) = Some (b, r)) -> reads_as ex_parse [c] b) by (intros c b H r _; apply H).
    assert (PR : forall c, c <> 58%N -> paired [c]) by (intros; apply pr_char; [assumption|constructor]).
    unfold ex_pieces. repeat apply Forall_cons; try apply Forall_nil; try exact I.
    - split; [discriminate|]. split; [split; cbn; intuition discriminate|]. split; [|cbn; intuition discriminate].
      apply D_char; [exact I|discriminate|]. apply D_char; [exact I|discriminate|constructor].
    - split; [split; cbn; intuition discriminate|]. split; [apply PR; discriminate|]. split; [now apply R|exact I].
    - split; [discriminate|]. split; [split; cbn; intuition discriminate|]. split; [|cbn; intuition discriminate].
      apply D_simple; [cbn; tauto|constructor].
    - split; [split; cbn; intuition discriminate|]. split; [apply PR; discriminate|]. split; [now apply R|].
      split; [cbn; intuition discriminate|]. split; [discriminate|]. intros (r & E). discriminate. }
  split; [exact OK|]. split; [reflexivity|]. intros after. apply (block_ok bool ex_parse ex_pieces after OK).
Qed.
Print Assumptions C56_concat_partial.
Print Assumptions C56_long_value_refuted.
Print Assumptions C56_long_refuted.
Print Assumptions C56_bool_refuted.
Print Assumptions C56_ternary_refuted.
Print Assumptions C56_overwritten_refuted.

Print Assumptions C56_rejects.
Example C56_rejects_case : no_brace (bs "x ") /\ ~ In 125%N (bs "a::b") /\
  create_fstring_block (fun s => match s with c :: r => Some (c, r) | [] => None end) (bs "x {a::b}") [] = Panic.
Proof. splits; [unfold no_brace; split; cbn; intuition discriminate|cbn; intuition discriminate|reflexivity]. Qed.
