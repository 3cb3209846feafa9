(** C69: print statements. *)
From Verif Require Import Common StrLit_Model StrLit_Spec StrLit_Proofs FStr_Model FStr_Spec FStr_Proofs Print_Model Print_Spec Print_Proofs.
Local Open Scope nat_scope.

Section Props.
Variable expr : Type.
Variable parse_expression : bytes -> res expr.
Variable inferred_type : bytes -> expr -> option bytes.
Variable struct_of : expr -> option (bytes * bool).
Variable has_func : bytes -> bool.
Variable emit : expr -> bytes.
Notation sugar := (process_printf_sugar parse_expression inferred_type struct_of has_func emit).

(** A brace that is not closed makes the compiler read past the end of the string. *)
Theorem C69_open_refuted t r e nl tg : ~ In 123%N t -> ~ In 125%N r -> ~ In 58%N r -> ~ In 92%N r -> ~ In 0%N r ->
  parse_expression (skip_spaces r) = Ok e -> struct_of e = None -> sugar (t ++ 123%N :: r) nl tg = UB.
Proof.
  intros N1 N2 N3 N4 N5 P Hs. unfold process_printf_sugar. rewrite app_length. cbn [length]. 
  assert (SC : forall r d i, ~ In 125%N r -> ~ In 58%N r -> scan (S d) i None r = (i + length r, None)).
  { clear. induction r as [|c r IH]; intros d i A B; [cbn; now rewrite Nat.add_0_r|]. cbn [scan length].
    destruct (N.eqb_spec c 125) as [->|]; [destruct A; now left|]. destruct (N.eqb_spec c 58) as [->|]; [destruct B; now left|].
    rewrite andb_false_r. cbn [andb].
    assert (A' : ~ In 125%N r) by (intros X; apply A; now right). assert (B' : ~ In 58%N r) by (intros X; apply B; now right).
    destruct (c =? 123)%N; cbn [Nat.eqb]; rewrite IH by assumption; f_equal; lia. }
  rewrite loop_turn by assumption. rewrite SC by assumption. cbn [plus cut]. cbv zeta. rewrite firstn_all, skipn_all.
  assert (U : unescape r = r).
  { apply unescape_unquoted, unquoted_id. intros (a & b & ->). apply N4. apply in_or_app. right. now left. }
  unfold rewritten. rewrite U, cstr_app by assumption. rewrite P. cbn [bind]. unfold rewrite_arg. rewrite Hs. reflexivity.
Qed.
(** A doubled brace is not a brace: the inside of "{{x}}", braces included, is parsed as an
    expression, and the statement is rejected if it is none. *)
Theorem C69_braces_refuted t x u r nl tg : ~ In 123%N t -> balanced x -> unquoted x u -> ~ In 0%N x ->
  parse_expression ([123%N] ++ u ++ [125%N]) = Panic ->
  sugar (t ++ [123; 123]%N ++ x ++ [125; 125]%N ++ r) nl tg = Panic.
Proof.
  intros N1 B U Z P. unfold process_printf_sugar. 
  replace (t ++ [123%N; 123%N] ++ x ++ [125%N; 125%N] ++ r) with (t ++ 123%N :: (123%N :: x ++ [125%N]) ++ 125%N :: r)
    by (cbn [app]; rewrite <- !app_assoc; reflexivity).
  rewrite loop_turn by assumption.
  assert (SC : scan 1 0 None ((123%N :: x ++ [125%N]) ++ 125%N :: r) = (length (123%N :: x ++ [125%N]), None)).
  { cbn [app]. rewrite <- app_assoc. rewrite scan_open, (scan_deep x B). cbn [app]. rewrite scan_shut, scan_close. f_equal.
    cbn [length]. rewrite app_length. cbn. lia. }
  rewrite SC. cbv zeta. rewrite firstn_at. cbn [cut].
  assert (Uq : unquoted (123%N :: x ++ [125%N]) (123%N :: u ++ [125%N])).
  { constructor; [intros [E _]; discriminate E|]. apply unquoted_app; [assumption| |discriminate].
    constructor; [intros [E _]; discriminate E|constructor]. }
  unfold rewritten. rewrite (unescape_unquoted _ _ Uq). rewrite cstr_app.
  2: { intros I. apply (unquoted_in _ _ _ Uq) in I as [E|I]; [discriminate E|]. apply in_app_or in I as [I|[E|[]]]; [tauto|discriminate E]. }
  cbn [skip_spaces app] in *. change (123 =? 32)%N with false. cbv iota. rewrite P. reflexivity.
Qed.
(** Text of 8192 bytes or more overflows the compiler's buffer. *)
Theorem C69_long_refuted t nl tg : ~ In 123%N t -> (8192 <= N.of_nat (length t))%N -> sugar t nl tg = UB.
Proof.
  intros N1 B. unfold process_printf_sugar. rewrite loop_text; [|assumption|intros ->; cbn in B; lia]. cbn [bind].
  assert (G : forall s : bytes, length s <= length (esc s)).
  { intros s. induction s as [|c|c d s IH1 IH2] using two_ind; [cbn; lia| |].
    - cbn [esc]. repeat destruct (_ =? _)%N; cbn [length]; lia.
    - destruct (N.eqb_spec c 92) as [->|N]; [cbn [esc]; change (92 =? 92)%N with true; cbn [length]; lia|].
      rewrite esc_cons by assumption. destruct (c =? 10)%N, (c =? 13)%N, (c =? 9)%N, (c =? 34)%N; cbn [length] in *; lia. }
  specialize (G t). rewrite app_length. cbn [app flat_map]. rewrite !app_length. cbn [render]. rewrite !app_length. unfold bytes in *.
  match goal with |- context [(?a <? 8192)%N] => destruct (N.ltb_spec a 8192) end; [lia|reflexivity].
Qed.
(** Every escaped quote in the expression (there are [k]) makes the format lose its first
    character. *)
Theorem C69_format_refuted t src u f r e fuel : ~ In 123%N t -> colonless src -> unquoted src u -> ~ In 0%N src ->
  ~ occurs [92; 34]%N f -> ~ In 0%N f -> ~ In 123%N f -> ~ In 125%N f -> f <> [] -> (forall x, f <> 58%N :: x) ->
  let k := length src - length u in 1 <= k <= length f ->
  parse_expression (skip_spaces (u ++ 58%N :: firstn (k - 1) f)) = Ok e -> struct_of e = None ->
  sugar_loop parse_expression inferred_type struct_of has_func (S fuel) (t ++ 123%N :: src ++ 58%N :: f ++ 125%N :: r) =
  do l <- sugar_loop parse_expression inferred_type struct_of has_func fuel r;
  Ok (pre expr t ++ Conv (37%N :: skipn k f) (Plain e) :: l).
Proof.
  intros N1 CL U Z Q Zf B1 B2 NE N58 k K P Hs. rewrite loop_turn by assumption. rewrite scan_colonless by assumption. cbn [plus].
  assert (S1 : scan 1 (length src) None (58%N :: f ++ 125%N :: r) = (length src + 1 + length f, Some (length src))).
  { destruct f as [|d f]; [congruence|]. cbn [app]. rewrite scan_colon by (intros ->; now destruct (N58 f)).
    change (d :: f ++ 125%N :: r) with ((d :: f) ++ 125%N :: r). rewrite scan_format by assumption. rewrite scan_close. f_equal. lia. }
  rewrite S1. cbv zeta.
  replace (length src + 1 + length f) with (length (src ++ 58%N :: f)) by (rewrite app_length; cbn [length]; lia).
  replace (src ++ 58%N :: f ++ 125%N :: r) with ((src ++ 58%N :: f) ++ 125%N :: r) by (rewrite <- app_assoc; reflexivity).
  rewrite firstn_at, skipn_at.
  assert (Uq : unquoted (src ++ 58%N :: f) (u ++ 58%N :: f)).
  { apply unquoted_app; [assumption| |discriminate]. constructor; [intros [E _]; discriminate|now apply unquoted_id]. }
  pose proof (unquoted_length _ _ U) as LU.
  assert (Zu : ~ In 0%N u) by (intros X; apply Z; now apply (unquoted_in _ _ _ U)).
  unfold rewritten. rewrite (unescape_unquoted _ _ Uq). set (rest := skipn _ ((src ++ 58%N :: f) ++ [0%N])). clearbody rest.
  assert (Eu : length src = length (u ++ 58%N :: firstn (k - 1) f)).
  { rewrite app_length. cbn [length]. rewrite firstn_length. unfold k in *. lia. }
  assert (Ef : (u ++ 58%N :: f) ++ 0%N :: rest = (u ++ 58%N :: firstn (k - 1) f) ++ (skipn (k - 1) f ++ 0%N :: rest)).
  { rewrite <- !app_assoc. cbn [app]. do 2 f_equal. rewrite app_assoc. now rewrite firstn_skipn. }
  rewrite Ef. unfold cut. rewrite Eu, firstn_at.
  assert (Sk : forall a (b : bytes), skipn (S (length a)) (a ++ b) = skipn 1 b).
  { intros a b. change (S (length a)) with (1 + length a). rewrite Nat.add_comm, <- skipn_skipn'. now rewrite skipn_at. }
  rewrite Sk. rewrite cstr_app.
  2: { intros I. apply in_app_or in I as [I|[I|I]]; [tauto|discriminate I|]. apply Zf. rewrite <- (firstn_skipn (k - 1) f). apply in_or_app. now left. }
  rewrite Sk.
  assert (E1 : skipn 1 (skipn (k - 1) f ++ 0%N :: rest) = skipn k f ++ 0%N :: rest).
  { rewrite skipn_app, skipn_skipn'. rewrite skipn_length. replace (1 - (length f - (k - 1))) with 0 by lia. cbn [skipn]. do 2 f_equal. lia. }
  rewrite E1. cbn [skipn]. rewrite cstr_app.
  2: { intros I. apply Zf. rewrite <- (firstn_skipn k f). apply in_or_app. now right. }
  rewrite P. cbn [bind]. unfold rewrite_arg. rewrite Hs. reflexivity.
Qed.

Variable world real : Type.
Variable decode : bytes -> bytes.
Variable eval : expr -> world -> cval real * world.
Variable method : bytes -> expr -> world -> bytes * world.
Variable libc : bytes -> cval real -> option bytes.
Variable decimal : Z -> bytes.
Variable fixed : real -> bytes.
Variable addr : N -> bytes.
Notation run := (run parse_expression inferred_type struct_of has_func emit decode eval method libc).
Notation piece_ok := (piece_ok expr parse_expression).
Notation writes_all := (writes_all expr world real inferred_type struct_of has_func eval method libc decimal fixed addr).

(** A print statement, in any of its forms, writes its pieces one after the other to the
    stream of its form, evaluating each expression once and in order, then a newline or a
    flush as the form says.  Missing from the full claim: doubled braces ([C69_braces_refuted]),
    long statements ([C69_long_refuted]), formats behind escaped quotes ([C69_format_refuted]),
    and values for which no fitting conversion is chosen (the other [_refuted] theorems). *)
Theorem C69_print_partial k fstring multi ps w xs w' : decodes decode -> libc_ok decimal fixed addr libc ->
  Forall piece_ok ps -> no_adjacent expr ps -> writes_all ps w xs w' ->
  (N.of_nat (total_cost expr struct_of emit ps) + 40 < 8192)%N ->
  (multi = true -> k <> Bang true /\ k <> Bang false /\ k <> Prompt) ->
  (multi = false -> forall r, flat_map show ps <> 34%N :: r) ->
  exists last, run k fstring (token fstring multi (flat_map show ps)) w = Ok (w', map (Wrote (stream_of k)) xs ++ [last]) /\
    (ends_line k -> last = Wrote (stream_of k) [10%N]) /\ (~ ends_line k -> last = Flushed).
Proof.
  intros D L F NA W C M1 M2.
  destruct (exec_pieces expr parse_expression inferred_type struct_of has_func emit world real decode eval method libc decimal fixed addr D L (form_target k) ps w xs w' F W) as [A X].
  unfold Print_Model.run, print_statement. rewrite strip_ok by assumption. cbn [bind].
  rewrite (sugar_ok expr parse_expression inferred_type struct_of has_func emit ps) by assumption. cbn [bind fst snd]. rewrite X.
  assert (T : form_target k = stream_of k) by (destruct k; reflexivity).
  unfold ends_line.
  exists (if form_newline k then Wrote (stream_of k) [10%N] else Flushed). split; [|split].
  - rewrite <- T. destruct (form_newline k); reflexivity.
  - intros [-> | [-> | [-> | ->]]]; reflexivity.
  - intros N. destruct k as [| | | |[|]|[|]|]; try reflexivity; exfalso; apply N; tauto.
Qed.

(** How an expression without format is printed: the choice made for it. *)
Notation printed_by := (choose inferred_type).
(** A pointer to a struct with a to_string method: the method is called, and the address of
    its text printed. *)
Theorem C69_method_pointer_refuted s0 e n w s w' t : libc_ok decimal fixed addr libc ->
  has_method expr struct_of has_func e n true -> inferred_type s0 e = Some (n ++ bs "*") -> ~ occurs (bs "char") (n ++ bs "*") ->
  method n e w = (s, w') ->
  exists a, rewrite_arg struct_of has_func e = Ok a /\
    exec1 decode eval method libc t w (printed_by s0 None e a) =
    match libc (bs "%p") (VText s) with Some o => Ok (w', [Wrote t o]) | None => UB end.
Proof.
  intros L H T O M. exists (ToString n true e). split; [now apply method_arg|]. unfold choose. rewrite T.
  rewrite pointer_spec; [|apply in_or_app; right; now left|assumption]. cbn [exec1 eval_arg]. rewrite M. reflexivity.
Qed.
(** A pointer to a struct whose name contains "char" is printed as if it were a string. *)
Theorem C69_char_pointer_refuted s0 e n w a w' t : libc_ok decimal fixed addr libc -> inferred_type s0 e = Some (n ++ bs "*") ->
  occurs (bs "char") n -> eval e w = (VPtr TPtr a, w') ->
  exec1 decode eval method libc t w (printed_by s0 None e (Plain e)) = UB.
Proof.
  intros L T (x & y & ->) E. unfold choose. rewrite T.
  assert (Sp : spec_of_type ((x ++ bs "char" ++ y) ++ bs "*") = Some (bs "%s", false)).
  { unfold spec_of_type. set (n := (x ++ bs "char" ++ y) ++ bs "*").
    assert (Y : existsb (N.eqb 42) n = true).
    { apply existsb_exists. exists 42%N. split; [|reflexivity]. apply in_or_app. right. now left. }
    assert (K : forall l, forallb (fun x => negb (existsb (N.eqb 42) x)) l = true -> is_one_of l n = false).
    { intros l F. destruct (is_one_of l n) eqn:X; [|reflexivity]. apply one_of_in in X. rewrite forallb_forall in F. apply F in X.
      apply negb_true_iff in X. congruence. }
    assert (K1 : forall z, existsb (N.eqb 42) z = false -> beq_bytes n z = false).
    { intros z F. destruct (beq_bytes n z) eqn:X; [|reflexivity]. apply beq_bytes_true in X. congruence. }
    rewrite !K1 by (vm_compute; reflexivity). rewrite !K by (vm_compute; reflexivity).
    assert (St : ends_with_star n = true) by (unfold ends_with_star, n; rewrite rev_app_distr; reflexivity). rewrite St.
    assert (Oc : forall z q, exists k, strstr (z ++ bs "char" ++ q) (bs "char") = Some k).
    { clear. intros z q. induction z as [|c z [k IH]].
      - exists 0. reflexivity.
      - cbn [app]. change (strstr (c :: z ++ bs "char" ++ q) (bs "char")) with
          (if is_prefix (bs "char") (c :: z ++ bs "char" ++ q) then Some 0 else option_map S (strstr (z ++ bs "char" ++ q) (bs "char"))).
        rewrite IH. destruct (is_prefix _ _); eexists; reflexivity. }
    unfold n. rewrite <- !app_assoc. destruct (Oc x (y ++ bs "*")) as [k ->]. reflexivity. }
  rewrite Sp. cbn [exec1 eval_arg]. rewrite E. unfold fprintf. destruct L as (_ & _ & _ & _ & _ & _ & _ & _ & _ & _ & _ & L12). now rewrite L12.
Qed.
(** An expression of unknown type that begins with a minus sign or a digit is taken for an
    int: a floating-point value is passed to "%d". *)
Theorem C69_guess_refuted c s0 e w ty r w' t : libc_ok decimal fixed addr libc -> c = 45%N \/ (48 <= c <= 57)%N ->
  inferred_type (c :: s0) e = None -> eval e w = (VReal ty r, w') ->
  exec1 decode eval method libc t w (printed_by (c :: s0) None e (Plain e)) = UB.
Proof.
  intros L C T E. unfold choose. rewrite T.
  assert (Sp : spec_of_literal (c :: s0) = Some (bs "%d")).
  { cbn. destruct C as [-> | C]; [reflexivity|]. destruct (N.leb_spec 48 c), (N.leb_spec c 57); try lia. reflexivity. }
  rewrite Sp. cbn [exec1 eval_arg]. rewrite E. unfold fprintf. destruct L as (_ & _ & _ & _ & _ & _ & _ & _ & _ & _ & L11 & _). now rewrite L11.
Qed.
(** An 8-bit integer is printed as a number when its type is plain, and as the character of
    that code when it is const. *)
Theorem C69_const_refuted s0 e w z w' t : libc_ok decimal fixed addr libc -> no_literal s0 -> eval e w = (VInt TSChar z, w') ->
  (inferred_type s0 e = Some (bs "int8_t") ->
   exec1 decode eval method libc t w (printed_by s0 None e (Plain e)) = Ok (w', [Wrote t (decimal z)])) /\
  (inferred_type s0 e = Some (bs "const int8_t") ->
   exec1 decode eval method libc t w (printed_by s0 None e (Plain e)) = Ok (w', [Wrote t [Z.to_N (z mod 256)]])).
Proof.
  intros L NL E. destruct L as (L1 & _ & _ & _ & _ & _ & L7 & _). split; intros T; unfold choose; rewrite T.
  - change (spec_of_type (bs "int8_t")) with (Some (bs "%d", false)). cbn [exec1 eval_arg]. rewrite E. unfold fprintf.
    rewrite L1 by (cbn; tauto). reflexivity.
  - change (spec_of_type (bs "const int8_t")) with (@None (bytes * bool)). rewrite (literal_none expr parse_expression inferred_type has_func s0 NL). cbn [exec1 eval_arg]. rewrite E.
    cbn [typeof z_str z_arg]. unfold fprintf. rewrite L7 by (cbn; tauto). reflexivity.
Qed.
(** The shorthands of parser_expr.c print two of the three quotes on each side of a
    multi-line string. *)
Theorem C69_triple_refuted k fs c : k = Prompt \/ (exists d, k = Bang d) ->
  strip k fs (token fs true c) = Ok ([34; 34]%N ++ c ++ [34; 34]%N).
Proof.
  intros K. assert (X : strip k fs (token fs true c) = strip Prompt fs (token fs false ([34; 34]%N ++ c ++ [34; 34]%N))).
  { replace (token fs false ([34%N; 34%N] ++ c ++ [34%N; 34%N])) with (token fs true c).
    - destruct K as [-> | [d ->]]; reflexivity.
    - unfold token. cbn [app]. do 4 f_equal. rewrite <- app_assoc. reflexivity. }
  rewrite X. unfold strip, token. set (off := if fs then 1 else 0). set (q := [34%N; 34%N] ++ c ++ [34%N; 34%N]).
  assert (So : forall x : bytes, skipn off ((if fs then [102%N] else []) ++ x) = x) by (intros; now destruct fs).
  assert (Lo : length (if fs then [102%N] else []) = off) by now destruct fs.
  rewrite !app_length, Lo. cbn [length].
  destruct (Nat.ltb_spec (off + (1 + (length q + 1))) (off + 1 + 1)); [lia|]. f_equal.
  rewrite <- skipn_skipn', So. change (skipn 1 ([34%N] ++ q ++ [34%N])) with (q ++ [34%N]).
  replace (off + (1 + (length q + 1)) - (off + 1 + 1)) with (length q) by lia.
  rewrite firstn_app, Nat.sub_diag, firstn_all. cbn [firstn]. apply app_nil_r.
Qed.
End Props.

(** A concrete case: a println of "n = {n} [{n:05d}] {p}" with an int [n] and a struct [p] that
    has a to_string method; the state records what is evaluated. *)
Definition ex_libc (decimal : Z -> bytes) (f : bytes) (v : cval unit) : option bytes :=
  match v with
  | VInt t z => if beq_bytes f (bs "%05d") then Some (bs "00042") else
                if beq_bytes f (bs "%c") then Some [Z.to_N (z mod 256)] else Some (decimal z)
  | VReal _ _ => if beq_bytes f (bs "%d") then None else Some (bs "1.000000")
  | VText s => if beq_bytes f (bs "%s") then Some s else None
  | VPtr TPtr a => if beq_bytes f (bs "%p") then Some (bs "0x10") else None
  | VPtr _ a => Some (bs "0x10")
  | VOther => None
  end.
Definition ex_pieces : list (piece bytes) :=
  [PText (bs "n = ") (bs "n = "); PExpr (bs "n") (bs "n") None; PText (bs " [") (bs " ["); PExpr (bs "n") (bs "n") (Some (bs "05d"));
   PText (bs "] ") (bs "] "); PExpr (bs "p") (bs "p") None].
Definition ex_type (s : bytes) (e : bytes) : option bytes := if beq_bytes e (bs "n") then Some (bs "int") else Some (bs "P").
Definition ex_struct (e : bytes) : option (bytes * bool) := if beq_bytes e (bs "p") then Some (bs "P", false) else None.
Definition ex_func (f : bytes) : bool := beq_bytes f (bs "P__to_string").
Definition ex_eval (e : bytes) (w : list bytes) : cval unit * list bytes := (VInt TInt 42, e :: w).
Definition ex_method (n e : bytes) (w : list bytes) : bytes * list bytes := (bs "P(1, 2)", e :: w).
Example C69_ex decimal decode : FStr_Spec.decodes decode -> decimal 42%Z = bs "42" ->
  libc_ok decimal (fun _ => bs "1.000000") (fun _ => bs "0x10") (ex_libc decimal) /\
  run Ok ex_type ex_struct ex_func (fun e => e) decode ex_eval ex_method (ex_libc decimal) Println false
    ([34%N] ++ bs "n = {n} [{n:05d}] {p}" ++ [34%N]) [] =
  Ok ([bs "p"; bs "n"; bs "n"],
      map (Wrote Stdout) [bs "n = "; bs "42"; bs " ["; bs "00042"; bs "] "; bs "P(1, 2)"] ++ [Wrote Stdout [10%N]]).
Proof.
  intros D X.
  assert (L : libc_ok decimal (fun _ => bs "1.000000") (fun _ => bs "0x10") (ex_libc decimal)).
  { unfold libc_ok. splits; try reflexivity. now intros [] a. }
  split; [exact L|].
  assert (CL : forall c, c <> 123%N -> c <> 125%N -> c <> 58%N -> colonless [c]) by (intros; apply cl_char; auto; constructor).
  assert (TX : forall c, c <> 32%N -> c <> 92%N -> text_of [c] [c]).
  { intros c A B. exists 0. split; [|intros r E; injection E; auto]. cbn [repeat app]. apply uq_char; [tauto|constructor]. }
  destruct (C69_print_partial bytes Ok ex_type ex_struct ex_func (fun e => e) (list bytes) unit decode ex_eval ex_method (ex_libc decimal)
    decimal (fun _ => bs "1.000000") (fun _ => bs "0x10") Println false false ex_pieces []
    [bs "n = "; bs "42"; bs " ["; bs "00042"; bs "] "; bs "P(1, 2)"] [bs "p"; bs "n"; bs "n"]) as (last & R & E & _).
  - exact D.
  - exact L.
  - assert (T : forall s, s <> [] -> forallb (fun c => negb (c =? 123)%N && negb (c =? 92)%N && negb (c =? 0)%N) s = true -> piece_ok bytes Ok (PText s s)).
    { intros s NE F. rewrite forallb_forall in F. split; [assumption|].
      assert (Q : forall c, In c s -> c <> 123%N /\ c <> 92%N /\ c <> 0%N).
      { intros c I. specialize (F c I). destruct (N.eqb_spec c 123), (N.eqb_spec c 92), (N.eqb_spec c 0); try discriminate F; auto. }
      split; [intros I; now destruct (Q _ I)|]. split; [|intros I; now destruct (Q _ I) as (_ & _ & Z)].
      clear F NE. induction s as [|c s IH]; [constructor|]. apply D_char; [exact I|now apply (Q c); left|apply IH; intros; apply Q; now right]. }
    unfold ex_pieces. repeat apply Forall_cons; try apply Forall_nil; try (apply T; [discriminate|reflexivity]).
    + split; [now apply CL|]. split; [cbn; intuition discriminate|]. split; [exists (bs "n"); split; [now apply TX|reflexivity]|exact I].
    + split; [now apply CL|]. split; [cbn; intuition discriminate|]. split; [exists (bs "n"); split; [now apply TX|reflexivity]|].
      splits; try (intros I; cbn in I; intuition discriminate); try discriminate; intros (a & b & Y);
        [destruct a as [|x [|y a]]; discriminate Y|destruct a as [|? [|? [|? [|? a]]]]; discriminate Y].
    + split; [now apply CL|]. split; [cbn; intuition discriminate|]. split; [exists (bs "p"); split; [now apply TX|reflexivity]|exact I].
  - cbn. auto.
  - apply wa_cons with []; [apply w_text|].
    apply wa_cons with [bs "n"].
    { rewrite <- X. apply (w_value _ _ _ _ _ _ _ _ _ _ _ _ (bs "n") (bs "n") (bs "n") (VInt TInt 42)); [now apply TX|reflexivity|now left|exact I|].
      left. exists (bs "int"). split; [reflexivity|]. cbn. tauto. }
    apply wa_cons with [bs "n"]; [apply w_text|].
    apply wa_cons with [bs "n"; bs "n"]; [apply w_format with (VInt TInt 42); [reflexivity|now left|reflexivity]|].
    apply wa_cons with [bs "n"; bs "n"]; [apply w_text|].
    apply wa_cons with [bs "p"; bs "n"; bs "n"]; [|constructor].
    apply w_method with (bs "p") (bs "P"); [now apply TX|split; [reflexivity|split; [cbn; lia|reflexivity]]|reflexivity| |unfold no_literal; cbn; splits; lia].
    split; [|cbn; intuition discriminate]. cbn. intuition discriminate.
  - vm_compute. reflexivity.
  - discriminate.
  - intros _ r Y. discriminate Y.
  - rewrite E in R by (left; reflexivity). exact R.
Qed.
(** The hypotheses of the other theorems are met: "{{x}}" with a parser that takes names only,
    and "{f(\"a\"):05d}", whose format becomes "%d" after two escaped quotes. *)
Example C69_braces_case :
  process_printf_sugar (fun s => match s with 120%N :: _ => Ok s | _ => Panic end) (fun _ _ => None) (fun _ => None) (fun _ => false) (fun e => e)
    (bs "a{{x}}b") true Stdout = Panic.
Proof. apply (C69_braces_refuted bytes (fun s => match s with 120%N :: _ => Ok s | _ => Panic end) (fun _ _ => None) (fun _ => None) (fun _ => false) (fun e => e) (bs "a") (bs "x") (bs "x") (bs "b")); try (cbn; intuition discriminate).
  - repeat (constructor; try discriminate).
  - constructor; [intros [E _]; discriminate E|constructor].
Qed.
Example C69_format_case : let src := bs "f(" ++ [92; 34; 97; 92; 34]%N ++ bs ")" in let u := bs "f(" ++ [34; 97; 34]%N ++ bs ")" in
  colonless src /\ unquoted src u /\ length src - length u = 2 /\
  sugar_loop (fun s : bytes => Ok s) (fun _ _ => None) (fun _ => None) (fun _ => false) 3 ([123%N] ++ src ++ bs ":05d}") =
    Ok [Conv (bs "%d") (Plain (u ++ bs ":0"))].
Proof.
  cbv zeta. splits.
  - cbn [bs app map]. repeat (apply cl_char; [discriminate|discriminate|discriminate|]). constructor.
  - cbn [app]. repeat first [apply uq_nil|apply uq_quote|apply uq_char; [intros [E (r & Y)]; discriminate|]].
  - reflexivity.
  - reflexivity.
Qed.
Print Assumptions C69_print_partial.
Print Assumptions C69_open_refuted.
Print Assumptions C69_braces_refuted.
Print Assumptions C69_long_refuted.
Print Assumptions C69_format_refuted.
Print Assumptions C69_method_pointer_refuted.
Print Assumptions C69_char_pointer_refuted.
Print Assumptions C69_guess_refuted.
Print Assumptions C69_const_refuted.
Print Assumptions C69_triple_refuted.
