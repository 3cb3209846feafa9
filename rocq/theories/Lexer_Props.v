(** C26, C27, C28, C52, C53, C54: the lexer. *)
From Verif Require Import Common Lexer_Model Lexer_Spec Lexer_Proofs Lexer_Munch Lexer_Next.
Local Open Scope N_scope.

Lemma lexer_next_fuel l : (lpos l <= length (lsrc l))%nat ->
  (lexer_next l = UB /\ ~ ends_well (lsrc l)) \/ exists t l', lexer_next l = Ok (t, l') /\ next_spec l t l'.
Proof. intros H. apply next_ok; auto. Qed.

Lemma next_inv l t l' : (lpos l <= length (lsrc l))%nat -> lexer_next l = Ok (t, l') -> next_spec l t l'.
Proof.
  intros H E. destruct (lexer_next_fuel l H) as [[U _]|(t1 & l1 & E1 & S1)]; [congruence|].
  rewrite E in E1. injection E1 as <- <-. exact S1.
Qed.

Definition plain_chars (src : bytes) (ts : list token) : Prop :=
  Forall (fun t => tk t = TOK_CHAR -> ~ In 10 (text src t)) ts.

Lemma lex_all_ok n : forall l, (lpos l <= length (lsrc l))%nat -> (length (lsrc l) - lpos l < n)%nat ->
  (lex_all n l = UB /\ ~ ends_well (lsrc l)) \/
  exists ts, lex_all n l = Ok ts /\ Covers (lemit l) (lsrc l) (lpos l) ts /\
    (length ts <= S (length (lsrc l) - lpos l))%nat.
Proof.
  induction n as [|n IH]; intros l Lp Ln; [lia|]. cbn [lex_all].
  destruct (lexer_next_fuel l Lp) as [[-> U]|(t & l' & E & S)]; [now left|]. rewrite E. cbn [bind].
  destruct S as (A1 & A2 & A3 & A4 & A5 & _).
  destruct A5 as [(B1 & B2 & B3 & B4)|(B1 & B2 & B3 & B4 & B5 & _)].
  - rewrite B1. right. eexists. split; [reflexivity|]. split; [|cbn; lia]. now apply Cov_end.
  - assert (G : (lex_all n l' = UB /\ ~ ends_well (lsrc l)) \/ exists ts, lex_all n l' = Ok ts /\
        Covers (lemit l) (lsrc l) (tpos t + tlen t) ts /\ (length ts <= S (length (lsrc l) - lpos l'))%nat).
    { rewrite <- A1, <- A2, <- A3. apply IH; rewrite ?A1; lia. }
    destruct G as [[-> U]|(ts & -> & Cv & L)].
    + left. split; auto. destruct (tk t); cbn; congruence.
    + right. exists (t :: ts). split; [destruct (tk t); cbn; congruence|]. split.
      * apply Cov_tok; auto. lia.
      * cbn. lia.
Qed.

Lemma lex_all_lines n : forall l ts, (lpos l <= length (lsrc l))%nat -> lex_all n l = Ok ts ->
  plain_chars (lsrc l) ts ->
  (lok l -> Forall (fun t => tline t = adv_line (firstn (tpos t) (lsrc l)) 1) ts) /\
  (~ occurs (bs "/*") (lsrc l) -> cok' l ->
     Forall (fun t => tk t = TOK_EOF \/ tcol t = adv_col (firstn (tpos t) (lsrc l)) 1) ts).
Proof.
  induction n as [|n IH]; intros l ts Lp E Pc; [discriminate|]. cbn [lex_all] in E.
  apply bind_Ok in E. destruct E as ([t l'] & E & E').
  pose proof (next_inv _ _ _ Lp E) as (A1 & A2 & A3 & A4 & A5 & A6 & A7).
  destruct A5 as [(B1 & _)|(B1 & _)].
  - rewrite B1 in E'. injection E' as <-. split.
    + intros L. repeat constructor. now apply A6.
    + intros NB C. constructor; [now left|constructor].
  - assert (exists ts', lex_all n l' = Ok ts' /\ ts = t :: ts') as (ts' & Et & ->).
    { destruct (tk t); try (apply bind_Ok in E'; destruct E' as (ts' & ? & [= <-]); eauto). congruence. }
    inversion Pc as [|? ? P1 P2]; subst.
    destruct (IH l' ts') as [I1 I2]; auto; rewrite ?A1 in *; auto; try lia.
    split.
    + intros L. destruct (A6 L) as [X Y]. constructor; auto. 
    + intros NB C. destruct (A7 NB C) as [X Y]. constructor; auto.
Qed.

(** ** C26 *)

(** A source that does not end in a backslash or a single quote is lexed completely, in
    at most one step per byte and one for the end: the tokens are consecutive pieces of
    the source with only blanks and comments between them, the last one at its end. *)
Theorem C26_lexing_partial :
  forall src emit, ends_well src ->
  exists ts, lex_all (S (length src)) (Lex src 0 1 1 emit) = Ok ts /\
    Covers emit src 0 ts /\ (length ts <= S (length src))%nat.
Proof.
  intros src emit W. destruct (lex_all_ok (S (length src)) (Lex src 0 1 1 emit)) as [[_ U]|(ts & E & C & L)];
    cbn [lpos lsrc] in *; try lia; [easy|]. exists ts. splits; auto. lia.
Qed.
Print Assumptions C26_lexing_partial.

(** The same for every source for which the lexer does not leave the text. *)
Theorem C26_covers :
  forall src emit, lex_all (S (length src)) (Lex src 0 1 1 emit) = UB \/
  exists ts, lex_all (S (length src)) (Lex src 0 1 1 emit) = Ok ts /\ Covers emit src 0 ts.
Proof.
  intros src emit. destruct (lex_all_ok (S (length src)) (Lex src 0 1 1 emit)) as [[U _]|(ts & E & C & L)];
    cbn [lpos lsrc] in *; try lia; eauto.
Qed.
Print Assumptions C26_covers.

(** Looking ahead returns the tokens the next calls return and changes nothing. *)
Theorem C26_peek :
  forall l t l', lexer_next l = Ok (t, l') -> lexer_peek l = Ok t /\
  forall t2 l2, lexer_next l' = Ok (t2, l2) -> lexer_peek2 l = Ok t2.
Proof.
  intros l t l' E. unfold lexer_peek, lexer_peek2. rewrite E. split; auto. cbn. intros t2 l2 ->. reflexivity.
Qed.

Lemma quoted_ub b : Forall (fun c => c <> 34 /\ c <> 92) b -> quoted (b ++ [92]) = UB.
Proof.
  intros F. induction F as [|c b [H1 H2] F IH]; [reflexivity|]. cbn [app quoted].
  destruct (N.eqb_spec c 34); [easy|]. destruct (N.eqb_spec c 92); [easy|]. now rewrite IH.
Qed.

(** An unterminated string that ends in a backslash, and a lone quote, make the lexer
    read past the end of the source. *)
Theorem C26_overread_refuted :
  (forall b, Forall (fun c => c <> 34 /\ c <> 92) b -> lexer_next (lexer_init (34 :: b ++ [92])) = UB) /\
  lexer_next (lexer_init [39]) = UB /\ lexer_next (lexer_init [39; 92]) = UB.
Proof.
  splits; try reflexivity. intros b F.
  unfold lexer_next, lexer_init. cbn [lexer_next_f lsrc lpos].
  change (isspace 34) with false. cbn [skipn span firstn].
  change (isspace 34) with false. cbn [skipn firstn].
  replace (is_prefix (bs "//") (34 :: b ++ [92])) with false by reflexivity.
  replace (is_prefix (bs "/*") (34 :: b ++ [92])) with false by reflexivity.
  rewrite (lex_token_cons _ 34 (b ++ [92]) eq_refl). cbv zeta.
  change (is_ident_start 34) with false. cbn [andb].
  change (34 =? 35) with false. change (is_prefix [102; 34] (34 :: b ++ [92])) with false.
  change (is_prefix [114; 34] (34 :: b ++ [92])) with false. change (is_prefix [114; 39] (34 :: b ++ [92])) with false.
  cbn [orb]. change (isdigit 34) with false. change (34 =? 34) with true. cbn iota.
  unfold string_len. cbn [skipn Nat.add].
  assert (X : is_prefix [34; 34; 34] (34 :: b ++ [92]) = false).
  { cbn. inversion F as [|x b' [H1 H2] F' Eb]; [reflexivity|]. cbn.
    destruct (N.eqb_spec 34 x); [congruence|reflexivity]. }
  rewrite X. cbn [skipn]. rewrite (quoted_ub b F). reflexivity.
Qed.
Print Assumptions C26_overread_refuted.

(** ** C27 *)
Lemma line_at_adv src p : line_at src p = adv_line (firstn p src) 1.
Proof. unfold line_at. rewrite adv_line_count. reflexivity. Qed.

(** Provided no character literal contains a newline, every token carries its line. *)
Theorem C27_lines_partial :
  forall src emit n ts, lex_all n (Lex src 0 1 1 emit) = Ok ts ->
  Forall (fun t => tk t = TOK_CHAR -> ~ In 10 (text src t)) ts ->
  Forall (fun t => tline t = line_at src (tpos t)) ts.
Proof.
  intros src emit n ts E F.
  destruct (lex_all_lines n _ ts (Nat.le_0_l _ : lpos (Lex src 0 1 1 emit) <= _)%nat E F) as [A _].
  eapply Forall_impl; [|apply A; reflexivity]. cbn. intros t ->. now rewrite line_at_adv.
Qed.
Print Assumptions C27_lines_partial.

(** A newline in a character literal is not counted: the identifier of the second line
    is reported on line 1. *)
Theorem C27_char_newline_refuted :
  exists ts t, lex_all 9 (lexer_init ([39; 10; 39] ++ bs " x")) = Ok ts /\ In t ts /\
    tk t = TOK_IDENT /\ tline t = 1%nat /\ line_at ([39; 10; 39] ++ bs " x") (tpos t) = 2%nat.
Proof.
  exists [Tok TOK_CHAR 0 3 1 1; Tok TOK_IDENT 4 1 1 5; Tok TOK_EOF 5 0 1 6], (Tok TOK_IDENT 4 1 1 5).
  splits; try reflexivity. cbn. auto.
Qed.
Print Assumptions C27_char_newline_refuted.

(** ** C52 *)
Lemma col_at_adv b : exists a r, b = a ++ r /\ ~ In 10 r /\ (a = [] \/ exists a', a = a' ++ [10]) /\
  adv_col b 1 = S (length r).
Proof.
  induction b as [|c b IH] using rev_ind.
  - exists [], []. cbn. splits; auto.
  - destruct IH as (a & r & -> & Nr & Ea & E). rewrite adv_col_app, E. cbn [adv_col]. unfold step_col.
    destruct (N.eqb_spec c 10) as [->|].
    + exists ((a ++ r) ++ [10]), []. rewrite app_nil_r. splits; eauto.
    + exists a, (r ++ [c]). rewrite app_assoc, app_length. splits; auto.
      * rewrite in_app_iff. cbn. intuition.
      * cbn. lia.
Qed.

(** In a source without block comments and without newlines in character literals,
    every token but the last carries its column. *)
Theorem C52_columns_partial :
  forall src emit n ts, lex_all n (Lex src 0 1 1 emit) = Ok ts ->
  Forall (fun t => tk t = TOK_CHAR -> ~ In 10 (text src t)) ts ->
  ~ occurs (bs "/*") src ->
  Forall (fun t => tk t = TOK_EOF \/ col_at src (tpos t) (tcol t)) ts.
Proof.
  intros src emit n ts E F NB.
  destruct (lex_all_lines n _ ts (Nat.le_0_l _ : lpos (Lex src 0 1 1 emit) <= _)%nat E F) as [_ A].
  eapply Forall_impl; [|apply A; auto; left; reflexivity]. cbn. intros t [X|X]; auto. right.
  rewrite X. destruct (col_at_adv (firstn (tpos t) src)) as (a & r & E1 & E2 & E3 & E4).
  exists a, r. splits; auto.
Qed.
Print Assumptions C52_columns_partial.

(** The delimiters of a block comment are not counted: after any block comment without
    newlines the column is four too small. *)
Theorem C52_block_comment_refuted :
  exists t l, lexer_next (lexer_init (bs "/**/x")) = Ok (t, l) /\ tk t = TOK_IDENT /\ tcol t = 1%nat /\
    col_at (bs "/**/x") (tpos t) 5.
Proof.
  eexists _, _. split; [vm_compute; reflexivity|]. splits; try reflexivity.
  exists [], (bs "/**/"). splits; auto. cbn. intuition discriminate.
Qed.
Print Assumptions C52_block_comment_refuted.

(** ** C28 *)

(** Where a token starts with an operator character (and not with a comment), it is the
    longest operator that is a prefix of the text, with the type of that operator; a
    byte that starts no operator is a token by itself. *)
Theorem C28_munch :
  forall l t l', (lpos l <= length (lsrc l))%nat -> lexer_next l = Ok (t, l') ->
  forall c r, skipn (tpos t) (lsrc l) = c :: r -> operator_start c ->
  (forall r', c :: r <> bs "//" ++ r' /\ c :: r <> bs "/*" ++ r') ->
  (In (text (lsrc l) t, tk t) operators \/
   (tlen t = 1%nat /\ tk t = TOK_OP /\ forall o ty r', In (o, ty) operators -> c :: r <> o ++ r')) /\
  (forall o ty r', In (o, ty) operators -> c :: r = o ++ r' -> (length o <= tlen t)%nat).
Proof.
  intros l t l' Lp E c r Es (O1 & O2 & O3 & O4 & O5) NC.
  pose proof (next_inv _ _ _ Lp E) as (A1 & A2 & A3 & A4 & A5 & _).
  destruct A5 as [(_ & B2 & _)|(B1 & B2 & B3 & B4 & B5 & B6)].
  { rewrite B2, skipn_all in Es. discriminate. }
  unfold text. rewrite Es in *. unfold here in B6.
  destruct (is_prefix (bs "//") (c :: r)) eqn:P1. { apply pre_ex in P1. now destruct (NC (skipn 2 (c :: r))). }
  destruct (is_prefix (bs "/*") (c :: r)) eqn:P2. { apply pre_ex in P2. now destruct (NC (skipn 2 (c :: r))). }
  destruct B6 as (m & B6). rewrite (lex_token_cons _ c r eq_refl) in B6. cbv zeta in B6.
  destruct (N.eqb_spec c 35); [easy|].
  assert (I1 : is_ident_start c = false).
  { apply not_true_iff_false. intros X. apply is_ident_start_letter in X. apply O2. now left. }
  assert (I2 : isdigit c = false).
  { apply not_true_iff_false. intros X. apply isdigit_digit in X. apply O2. now right. }
  assert (F : forall k x, is_ident_start k = true -> is_prefix [k; x] (c :: r) = false).
  { intros k x Hk. cbn. destruct (N.eqb_spec k c); [congruence|reflexivity]. }
  rewrite I1, I2 in B6. cbn [andb] in B6. rewrite !F in B6 by reflexivity. cbn [orb] in B6.
  destruct (N.eqb_spec c 34); [easy|]. destruct (N.eqb_spec c 39); [easy|].
  pose proof (operator_munch (c :: r) ltac:(discriminate)) as M.
  destruct (operator (c :: r)) as [ty len]. cbn [fst snd] in M. injection B6 as <- <- _.
  destruct M as [M1 M2]. rewrite forallb_forall in M2.
  assert (M3 : forall o ty' r', In (o, ty') operators -> c :: r = o ++ r' -> (length o <= len)%nat).
  { intros o ty' r' Io Eo. specialize (M2 _ Io). cbn [fst] in M2.
    rewrite Eo, pre_app in M2. cbn in M2. now apply Nat.leb_le in M2. }
  split; auto.
  destruct (find _ operators) as [[o ty']|] eqn:Ef.
  - left. apply find_some in Ef. destruct Ef as [Io X]. apply andb_true_iff in X. cbn [fst] in X. destruct X as [X1 X2].
    apply Nat.eqb_eq in X2. apply pre_ex in X1. subst len ty'.
    replace (firstn (length o) (c :: r)) with o; auto.
    rewrite X1. now rewrite firstn_app, firstn_all, Nat.sub_diag, app_nil_r.
  - right. destruct M1 as [-> ->]. splits; auto. intros o ty' r' Io Eo.
    pose proof (M3 _ _ _ Io Eo) as L.
    assert (L1 : length o = 1%nat).
    { assert (1 <= length o)%nat; [|lia]. clear - Io. ops. cbn [In] in Io.
      repeat (destruct Io as [Io|Io]; [injection Io as <- <-; cbn; lia|]). easy. }
    pose proof (find_none _ _ Ef _ Io) as X. cbn [fst] in X. rewrite L1, Eo, pre_app in X. discriminate.
Qed.
Print Assumptions C28_munch.

(** ** C53 *)
Definition keyword_type (w : bytes) (ty : tokty) : Prop :=
  In (w, ty) keywords \/ (~ In w (map fst keywords) /\ ty = TOK_IDENT).

Lemma keyword_ok w : keyword_type w (match keyword w with Some t => t | None => TOK_IDENT end).
Proof.
  unfold keyword_type. destruct (keyword w) as [ty|] eqn:K.
  - left. unfold keyword in K.
    repeat match type of K with
    | context [beq_bytes w ?k] =>
        destruct (beq_bytes_spec w k) as [->|]; [injection K as <-; unfold keywords; cbn [In]; tauto|]
    end. discriminate.
  - right. split; auto. unfold keyword in K. intros I. unfold keywords in I. cbn [map fst In] in I.
    repeat (destruct I as [<-|I]; [vm_compute in K; discriminate|]). easy.
Qed.

(** What the token at a place is, once the place is known not to start a comment. *)
Lemma next_lex l t l' c r : (lpos l <= length (lsrc l))%nat -> lexer_next l = Ok (t, l') ->
  skipn (tpos t) (lsrc l) = c :: r -> c <> 47 -> exists m, lex_token (c :: r) = Ok (tk t, tlen t, m).
Proof.
  intros Lp E Es N47.
  pose proof (next_inv _ _ _ Lp E) as (A1 & A2 & A3 & A4 & A5 & _).
  destruct A5 as [(_ & B2 & _)|(B1 & B2 & B3 & B4 & B5 & B6)].
  { rewrite B2, skipn_all in Es. discriminate. }
  rewrite Es in *. unfold here in B6.
  destruct (is_prefix (bs "//") (c :: r)) eqn:P1. { apply pre_ex in P1. injection P1 as -> _. easy. }
  destruct (is_prefix (bs "/*") (c :: r)) eqn:P2. { apply pre_ex in P2. injection P2 as -> _. easy. }
  exact B6.
Qed.

(** Where a token starts with a letter or underscore it is the whole word, a keyword if
    the word is one and an identifier otherwise, unless the word is the prefix of an
    f-string or raw string. *)
Theorem C53_words :
  forall l t l', (lpos l <= length (lsrc l))%nat -> lexer_next l = Ok (t, l') ->
  forall c w r, skipn (tpos t) (lsrc l) = (c :: w) ++ r -> letter c -> Forall word_char w ->
  match r with x :: _ => ~ word_char x | [] => True end ->
  (c :: w = bs "f" -> forall r', r <> 34 :: r') ->
  (c :: w = bs "r" -> forall r', r <> 34 :: r' /\ r <> 39 :: r') ->
  tlen t = length (c :: w) /\ keyword_type (c :: w) (tk t).
Proof.
  intros l t l' Lp E c w r Es Lc Fw Sr Nf Nr.
  destruct (next_lex l t l' c (w ++ r) Lp E Es) as (m & B). { intros ->. unfold letter in Lc. lia. }
  rewrite (lex_token_cons _ c (w ++ r) eq_refl) in B. cbv zeta in B.
  destruct (N.eqb_spec c 35) as [->|]. { unfold letter in Lc. lia. }
  assert (Sp : span is_ident_char (c :: w ++ r) = length (c :: w)).
  { change (c :: w ++ r) with ((c :: w) ++ r). apply span_max.
    - constructor. { apply is_ident_char_word. now left. }
      eapply Forall_impl; [|exact Fw]. intros a. apply is_ident_char_word.
    - destruct r; auto. apply not_true_iff_false. intros X. now apply is_ident_char_word in X. }
  rewrite Sp in B.
  assert (Fn : firstn (length (c :: w)) (c :: w ++ r) = c :: w).
  { change (c :: w ++ r) with ((c :: w) ++ r). now rewrite firstn_app, firstn_all, Nat.sub_diag, app_nil_r. }
  rewrite Fn in B. rewrite (proj2 (is_ident_start_letter c) Lc) in B. cbn [andb] in B.
  assert (Q : forall k q, ~ word_char q -> is_prefix [k; q] (c :: w ++ r) = true -> c :: w = [k] /\ exists r', r = q :: r').
  { intros k q Hq P. apply pre_ex in P. cbn [length skipn app] in P. injection P as -> P.
    destruct w as [|x w]; cbn in P.
    - split; auto. destruct r; [discriminate|]. injection P as ->. eauto.
    - inversion Fw; subst. injection P as ->. easy. }
  assert (W34 : ~ word_char 34). { unfold word_char, letter, digit. lia. }
  assert (W39 : ~ word_char 39). { unfold word_char, letter, digit. lia. }
  assert (F1 : is_prefix [102; 34] (c :: w ++ r) = false).
  { apply not_true_iff_false. intros P. destruct (Q _ _ W34 P) as [E1 [r' E2]]. now apply (Nf E1 r'). }
  assert (F2 : is_prefix [114; 34] (c :: w ++ r) = false).
  { apply not_true_iff_false. intros P. destruct (Q _ _ W34 P) as [E1 [r' E2]]. now destruct (Nr E1 r'). }
  assert (F3 : is_prefix [114; 39] (c :: w ++ r) = false).
  { apply not_true_iff_false. intros P. destruct (Q _ _ W39 P) as [E1 [r' E2]]. now destruct (Nr E1 r'). }
  rewrite F1, F2, F3 in B. cbn [orb negb] in B.
  pose proof (keyword_ok (c :: w)) as K.
  destruct (keyword (c :: w)); injection B as <- <- _; auto.
Qed.
Print Assumptions C53_words.

(** ** C54 *)
Lemma quoted_body b r : string_body b -> quoted (b ++ 34 :: r) = Ok (length b).
Proof.
  intros H. induction H; cbn [app quoted length].
  - reflexivity.
  - destruct (N.eqb_spec c 34); [easy|]. destruct (N.eqb_spec c 92); [easy|]. now rewrite IHstring_body.
  - change (92 =? 34) with false. change (92 =? 92) with true. cbn iota. now rewrite IHstring_body.
Qed.

Lemma raw_body_len q b r : q <> 92 -> raw_body q b -> raw_quoted q (b ++ q :: r) = length b.
Proof.
  intros Hq H. induction H; cbn [app raw_quoted length].
  - now rewrite N.eqb_refl.
  - destruct (N.eqb_spec c q); [easy|]. destruct (N.eqb_spec c 92); [easy|]. now rewrite IHraw_body.
  - destruct (N.eqb_spec 92 q); [congruence|]. change (92 =? 92) with true. rewrite N.eqb_refl. now rewrite IHraw_body.
  - destruct (N.eqb_spec 92 q); [congruence|]. change (92 =? 92) with true.
    cbn [app raw_quoted length] in IHraw_body. destruct (N.eqb_spec c q); [easy|]. now rewrite IHraw_body.
Qed.

Lemma tripled_body b r : ~ occurs [34; 34; 34] (b ++ [34; 34]) -> tripled (b ++ [34; 34; 34] ++ r) = length b.
Proof.
  induction b as [|c b IH]; intros N; [reflexivity|].
  cbn [app tripled length]. destruct (is_prefix [34; 34; 34] (c :: b ++ 34 :: 34 :: 34 :: r)) eqn:P.
  - exfalso. apply N. exists []. cbn [app] in P |- *. cbn in P.
    destruct (N.eqb_spec 34 c) as [<-|]; [|discriminate].
    destruct b as [|d b]; cbn in P |- *. { exists []. reflexivity. }
    destruct (N.eqb_spec 34 d) as [<-|]; [|discriminate].
    destruct b as [|e b]; cbn in P |- *. { exists [34]. reflexivity. }
    destruct (N.eqb_spec 34 e) as [<-|]; [|discriminate].
    eexists. reflexivity.
  - f_equal. apply IH. intros (x & y & E). apply N. exists (c :: x), y. cbn. now rewrite E.
Qed.

(** A string literal is one token, to its closing quote: escapes are skipped.  The
    empty string followed by a quote opens a triple-quoted string instead.  Likewise
    f-strings ([pre] = "f"). *)
Theorem C54_strings :
  forall l t l', (lpos l <= length (lsrc l))%nat -> lexer_next l = Ok (t, l') ->
  forall pre body r, (pre = [] \/ pre = bs "f") ->
  skipn (tpos t) (lsrc l) = pre ++ [34] ++ body ++ [34] ++ r ->
  string_body body -> (body = [] -> forall r', r <> 34 :: r') ->
  tk t = (match pre with [] => TOK_STRING | _ => TOK_FSTRING end) /\
  text (lsrc l) t = pre ++ [34] ++ body ++ [34].
Proof.
  intros l t l' Lp E pre body r Hp Es Hb Ne.
  assert (X : is_prefix [34; 34; 34] (34 :: body ++ 34 :: r) = false).
  { inversion Hb as [|c b N1 N2 Hb' Eb|c b Hb' Eb]; subst.
    - destruct r as [|x r]; [reflexivity|]. cbn. destruct (N.eqb_spec 34 x) as [<-|]; auto.
      destruct (Ne eq_refl r eq_refl).
    - cbn. destruct (N.eqb_spec 34 c); [congruence|reflexivity].
    - reflexivity. }
  assert (SL : string_len (length pre) (pre ++ 34 :: body ++ 34 :: r) = Ok (length pre + 2 + length body)%nat).
  { unfold string_len. rewrite skipn_app, skipn_all, Nat.sub_diag. cbn [skipn app]. rewrite X.
    rewrite skipn_app, skipn_all2 by lia.
    replace (length pre + 1 - length pre)%nat with 1%nat by lia. cbn [skipn app].
    rewrite quoted_body by auto. cbn [bind]. unfold close_len. cbn [andb negb].
    rewrite skipn_app, skipn_all2 by lia. cbn [app].
    replace (length pre + 1 + length body - length pre)%nat with (S (length body)) by lia. cbn [skipn].
    rewrite skipn_app, skipn_all, Nat.sub_diag. cbn [skipn app is_prefix].
    rewrite N.eqb_refl. cbn [andb]. f_equal. lia. }
  assert (Tx : forall n, n = (length pre + 2 + length body)%nat ->
     firstn n (pre ++ [34] ++ body ++ [34] ++ r) = pre ++ [34] ++ body ++ [34]).
  { intros n ->. replace (length pre + 2 + length body)%nat with (length (pre ++ [34] ++ body ++ [34])).
    2:{ rewrite !app_length. cbn. lia. }
    replace (pre ++ [34] ++ body ++ [34] ++ r) with ((pre ++ [34] ++ body ++ [34]) ++ r).
    2:{ rewrite <- !app_assoc. reflexivity. }
    now rewrite firstn_app, firstn_all, Nat.sub_diag, app_nil_r. }
  unfold text. destruct Hp as [-> | ->].
  - cbn [app] in Es. destruct (next_lex l t l' 34 (body ++ 34 :: r) Lp E Es) as (m & B); [discriminate|].
    rewrite (lex_token_cons _ 34 (body ++ 34 :: r) eq_refl) in B. cbv zeta in B.
    change (is_ident_start 34) with false in B. change (34 =? 35) with false in B.
    change (is_prefix [102; 34] (34 :: body ++ 34 :: r)) with false in B.
    change (is_prefix [114; 34] (34 :: body ++ 34 :: r)) with false in B.
    change (is_prefix [114; 39] (34 :: body ++ 34 :: r)) with false in B.
    cbn [andb orb] in B. change (isdigit 34) with false in B. change (34 =? 34) with true in B. cbn iota in B.
    cbn [app length] in SL. rewrite SL in B. cbn [bind] in B. injection B as <- <- _. split; auto.
    rewrite Es. apply (Tx _ eq_refl).
  - change (bs "f") with [102] in *. cbn [app] in Es.
    destruct (next_lex l t l' 102 (34 :: body ++ 34 :: r) Lp E Es) as (m & B); [discriminate|].
    rewrite (lex_token_cons _ 102 (34 :: body ++ 34 :: r) eq_refl) in B. cbv zeta in B.
    change (102 =? 35) with false in B. change (is_prefix [102; 34] (102 :: 34 :: body ++ 34 :: r)) with true in B.
    replace (span is_ident_char (102 :: 34 :: body ++ 34 :: r)) with 1%nat in B by reflexivity.
    cbn [firstn] in B. change (keyword [102]) with (@None tokty) in B. cbn [orb negb] in B.
    rewrite andb_false_r in B. cbn [app length] in SL. rewrite SL in B. cbn [bind] in B. injection B as <- <- _. split; auto.
    rewrite Es. apply (Tx _ eq_refl).
Qed.
Print Assumptions C54_strings.

(** A triple-quoted string (plain, f or raw) ends at the first triple quote. *)
Theorem C54_triple :
  forall l t l', (lpos l <= length (lsrc l))%nat -> lexer_next l = Ok (t, l') ->
  forall pre body r, (pre = [] \/ pre = bs "f" \/ pre = bs "r") ->
  skipn (tpos t) (lsrc l) = pre ++ [34; 34; 34] ++ body ++ [34; 34; 34] ++ r ->
  ~ occurs [34; 34; 34] (body ++ [34; 34]) ->
  text (lsrc l) t = pre ++ [34; 34; 34] ++ body ++ [34; 34; 34].
Proof.
  intros l t l' Lp E pre body r Hp Es Nb.
  assert (Tx : forall n, n = (length pre + 6 + length body)%nat ->
     firstn n (pre ++ [34; 34; 34] ++ body ++ [34; 34; 34] ++ r) = pre ++ [34; 34; 34] ++ body ++ [34; 34; 34]).
  { intros n ->. replace (length pre + 6 + length body)%nat with (length (pre ++ [34; 34; 34] ++ body ++ [34; 34; 34])).
    2:{ rewrite !app_length. cbn. lia. }
    replace (pre ++ [34; 34; 34] ++ body ++ [34; 34; 34] ++ r) with ((pre ++ [34; 34; 34] ++ body ++ [34; 34; 34]) ++ r).
    2:{ rewrite <- !app_assoc. reflexivity. }
    now rewrite firstn_app, firstn_all, Nat.sub_diag, app_nil_r. }
  set (tl := body ++ [34; 34; 34] ++ r) in *.
  assert (Tl : tripled tl = length body) by (now apply tripled_body).
  assert (SL : string_len (length pre) (pre ++ [34; 34; 34] ++ tl) = Ok (length pre + 6 + length body)%nat).
  { unfold string_len. rewrite skipn_app, skipn_all, Nat.sub_diag. cbn [skipn app].
    change (is_prefix [34; 34; 34] (34 :: 34 :: 34 :: tl)) with true. cbn iota.
    rewrite skipn_app, skipn_all2 by lia. replace (length pre + 3 - length pre)%nat with 3%nat by lia. cbn [skipn app bind].
    rewrite Tl. unfold close_len. cbn [andb negb].
    rewrite skipn_app, skipn_all2 by lia. cbn [app].
    replace (length pre + 3 + length body - length pre)%nat with (3 + length body)%nat by lia. cbn [Nat.add skipn].
    unfold tl. rewrite skipn_app, skipn_all, Nat.sub_diag. cbn [skipn app].
    change (is_prefix [34; 34; 34] (34 :: 34 :: 34 :: r)) with true. cbn iota. f_equal. lia. }
  assert (RL : pre = bs "r" -> raw_len 34 (pre ++ [34; 34; 34] ++ tl) = (length pre + 6 + length body)%nat).
  { intros ->. change (bs "r") with [114]. unfold raw_len. cbn [app skipn].
    change (is_prefix [34; 34; 34] (34 :: 34 :: 34 :: tl)) with true. change (34 =? 34) with true. cbn [andb skipn].
    rewrite Tl. unfold close_len. cbn [andb negb Nat.add skipn].
    unfold tl. rewrite skipn_app, skipn_all, Nat.sub_diag. cbn [skipn app].
    change (is_prefix [34; 34; 34] (34 :: 34 :: 34 :: r)) with true. cbn iota. cbn [length]. lia. }
  unfold text. destruct Hp as [-> | [-> | ->]].
  - cbn [app] in Es. destruct (next_lex l t l' 34 (34 :: 34 :: tl) Lp E Es) as (m & B); [discriminate|].
    rewrite (lex_token_cons _ 34 (34 :: 34 :: tl) eq_refl) in B. cbv zeta in B.
    change (is_ident_start 34) with false in B. change (34 =? 35) with false in B.
    change (is_prefix [102; 34] (34 :: 34 :: 34 :: tl)) with false in B.
    change (is_prefix [114; 34] (34 :: 34 :: 34 :: tl)) with false in B.
    change (is_prefix [114; 39] (34 :: 34 :: 34 :: tl)) with false in B.
    cbn [andb orb] in B. change (isdigit 34) with false in B. change (34 =? 34) with true in B. cbn iota in B.
    cbn [app length] in SL. rewrite SL in B. cbn [bind] in B. injection B as _ <- _.
    rewrite Es. apply (Tx _ eq_refl).
  - change (bs "f") with [102] in *. cbn [app] in Es.
    destruct (next_lex l t l' 102 (34 :: 34 :: 34 :: tl) Lp E Es) as (m & B); [discriminate|].
    rewrite (lex_token_cons _ 102 (34 :: 34 :: 34 :: tl) eq_refl) in B. cbv zeta in B.
    change (102 =? 35) with false in B. change (is_prefix [102; 34] (102 :: 34 :: 34 :: 34 :: tl)) with true in B.
    replace (span is_ident_char (102 :: 34 :: 34 :: 34 :: tl)) with 1%nat in B by reflexivity.
    cbn [firstn] in B. change (keyword [102]) with (@None tokty) in B. cbn [orb negb] in B.
    rewrite andb_false_r in B. cbn [app length] in SL. rewrite SL in B. cbn [bind] in B. injection B as _ <- _.
    rewrite Es. apply (Tx _ eq_refl).
  - specialize (RL eq_refl). change (bs "r") with [114] in *. cbn [app] in Es.
    destruct (next_lex l t l' 114 (34 :: 34 :: 34 :: tl) Lp E Es) as (m & B); [discriminate|].
    rewrite (lex_token_cons _ 114 (34 :: 34 :: 34 :: tl) eq_refl) in B. cbv zeta in B.
    change (114 =? 35) with false in B. change (is_prefix [102; 34] (114 :: 34 :: 34 :: 34 :: tl)) with false in B.
    change (is_prefix [114; 34] (114 :: 34 :: 34 :: 34 :: tl)) with true in B.
    replace (span is_ident_char (114 :: 34 :: 34 :: 34 :: tl)) with 1%nat in B by reflexivity.
    cbn [firstn] in B. change (keyword [114]) with (@None tokty) in B. cbn [orb negb] in B.
    rewrite andb_false_r in B. cbn [nth] in B. cbn [app length] in RL. rewrite RL in B. injection B as _ <- _.
    rewrite Es. apply (Tx _ eq_refl).
Qed.
Print Assumptions C54_triple.

(** A raw string ends at the first quote that does not follow a backslash. *)
Theorem C54_raw :
  forall l t l', (lpos l <= length (lsrc l))%nat -> lexer_next l = Ok (t, l') ->
  forall q body r, (q = 34 \/ q = 39) ->
  skipn (tpos t) (lsrc l) = bs "r" ++ [q] ++ body ++ [q] ++ r ->
  raw_body q body -> (q = 34 -> body = [] -> forall r', r <> 34 :: r') ->
  tk t = TOK_RAW_STRING /\ text (lsrc l) t = bs "r" ++ [q] ++ body ++ [q].
Proof.
  intros l t l' Lp E q body r Hq Es Hb Ne. change (bs "r") with [114] in *. cbn [app] in Es.
  assert (X : (q =? 34) && is_prefix [34; 34; 34] (q :: body ++ q :: r) = false).
  { destruct Hq as [-> | ->]; [|reflexivity]. change (34 =? 34) with true. cbn [andb].
    inversion Hb as [|c b N1 N2 Hb' Eb|b Hb' Eb|c b Nq Hb' Eb]; subst.
    - destruct r as [|x r]; [reflexivity|]. cbn. destruct (N.eqb_spec 34 x) as [<-|]; auto.
      destruct (Ne eq_refl eq_refl r eq_refl).
    - cbn. destruct (N.eqb_spec 34 c); [congruence|reflexivity].
    - reflexivity.
    - reflexivity. }
  assert (RL : raw_len q (114 :: q :: body ++ q :: r) = (3 + length body)%nat).
  { unfold raw_len. cbn [skipn]. rewrite X. cbn [skipn]. rewrite raw_body_len by (auto; destruct Hq; subst; discriminate).
    unfold close_len. cbn [andb negb Nat.add skipn].
    rewrite skipn_app, skipn_all, Nat.sub_diag. cbn [skipn app is_prefix]. rewrite N.eqb_refl. cbn [andb]. lia. }
  destruct (next_lex l t l' 114 (q :: body ++ q :: r) Lp E Es) as (m & B); [discriminate|].
  rewrite (lex_token_cons _ 114 (q :: body ++ q :: r) eq_refl) in B. cbv zeta in B.
  change (114 =? 35) with false in B. change (is_prefix [102; 34] (114 :: q :: body ++ q :: r)) with false in B.
  assert (R : is_prefix [114; 34] (114 :: q :: body ++ q :: r) || is_prefix [114; 39] (114 :: q :: body ++ q :: r) = true).
  { destruct Hq as [-> | ->]; reflexivity. }
  rewrite R in B.
  assert (Sp : span is_ident_char (114 :: q :: body ++ q :: r) = 1%nat) by (destruct Hq as [-> | ->]; reflexivity).
  rewrite Sp in B. cbn [firstn] in B. change (keyword [114]) with (@None tokty) in B. cbn [orb negb] in B.
  rewrite andb_false_r in B. cbn [nth] in B. rewrite RL in B. unfold text. injection B as <- <- _.
  split; auto. rewrite Es.
  assert (Fx : forall n (a x : bytes), n = length a -> firstn n (a ++ x) = a).
  { intros n a x ->. now rewrite firstn_app, firstn_all, Nat.sub_diag, app_nil_r. }
  replace (114 :: q :: body ++ q :: r) with ((114 :: q :: body ++ [q]) ++ r) by (cbn; rewrite <- app_assoc; reflexivity).
  rewrite Fx; auto. cbn. rewrite app_length. cbn. lia.
Qed.
Print Assumptions C54_raw.

(** Character literals: 'c' and '\c'. *)
Theorem C54_chars :
  forall l t l', (lpos l <= length (lsrc l))%nat -> lexer_next l = Ok (t, l') ->
  forall c esc r, skipn (tpos t) (lsrc l) = [39] ++ esc ++ [c] ++ [39] ++ r ->
  (esc = [92] \/ (esc = [] /\ c <> 92)) ->
  tk t = TOK_CHAR /\ text (lsrc l) t = [39] ++ esc ++ [c] ++ [39].
Proof.
  intros l t l' Lp E c esc r Es He. cbn [app] in Es.
  destruct (next_lex l t l' 39 (esc ++ c :: 39 :: r) Lp E Es) as (m & B); [discriminate|].
  rewrite (lex_token_cons _ 39 (esc ++ c :: 39 :: r) eq_refl) in B. cbv zeta in B.
  change (is_ident_start 39) with false in B. change (39 =? 35) with false in B.
  change (is_prefix [102; 34] (39 :: esc ++ c :: 39 :: r)) with false in B.
  change (is_prefix [114; 34] (39 :: esc ++ c :: 39 :: r)) with false in B.
  change (is_prefix [114; 39] (39 :: esc ++ c :: 39 :: r)) with false in B.
  cbn [andb orb] in B. change (isdigit 39) with false in B. change (39 =? 34) with false in B.
  change (39 =? 39) with true in B. cbn iota in B. unfold text. rewrite Es.
  destruct He as [-> | [-> Nc]]; cbn [app char_len] in B |- *.
  - change (92 =? 92) with true in B. cbn iota in B. change (is_prefix [39] (39 :: r)) with true in B.
    cbn [bind] in B. injection B as <- <- _. auto.
  - destruct (N.eqb_spec c 92); [easy|]. change (is_prefix [39] (39 :: r)) with true in B.
    cbn [bind] in B. injection B as <- <- _. auto.
Qed.
Print Assumptions C54_chars.

(** Decimal integers: the digits are the token when what follows cannot continue a
    number; in particular before a range operator. *)
Theorem C54_decimal :
  forall l t l', (lpos l <= length (lsrc l))%nat -> lexer_next l = Ok (t, l') ->
  forall d ds r, skipn (tpos t) (lsrc l) = (d :: ds) ++ r -> Forall digit (d :: ds) ->
  (match r with
   | [] => True
   | c :: r' => ~ word_char c /\ (c = 46 -> exists r'', r' = 46 :: r'')
   end) ->
  tk t = TOK_INT /\ text (lsrc l) t = d :: ds.
Proof.
  intros l t l' Lp E d ds r Es F Hr. inversion F as [|? ? D Fd]; subst.
  assert (Fb : Forall (fun c => isdigit c = true) (d :: ds)).
  { eapply Forall_impl; [|exact F]. intros a. apply isdigit_digit. }
  assert (Sp : span isdigit ((d :: ds) ++ r) = length (d :: ds)).
  { apply span_max; auto. destruct r as [|c r]; auto. apply not_true_iff_false. intros X. apply isdigit_digit in X.
    destruct Hr as [Hr _]. apply Hr. now right. }
  destruct (next_lex l t l' d (ds ++ r) Lp E Es) as (m & B). { intros ->. unfold digit in D. lia. }
  rewrite (lex_token_cons _ d (ds ++ r) eq_refl) in B. cbv zeta in B.
  destruct (N.eqb_spec d 35) as [->|]. { unfold digit in D. lia. }
  assert (I1 : is_ident_start d = false).
  { apply not_true_iff_false. intros X. apply is_ident_start_letter in X. unfold letter, digit in *. lia. }
  rewrite I1 in B. cbn [andb] in B.
  assert (Fx : forall k x, ~ digit k -> is_prefix [k; x] (d :: ds ++ r) = false).
  { intros k x Hk. cbn. destruct (N.eqb_spec k d); [congruence|reflexivity]. }
  rewrite !Fx in B by (unfold digit; lia). cbn [orb] in B.
  rewrite (proj2 (isdigit_digit d) D) in B.
  assert (Fn : firstn (length (d :: ds)) ((d :: ds) ++ r) = d :: ds).
  { now rewrite firstn_app, firstn_all, Nat.sub_diag, app_nil_r. }
  assert (Sk : skipn (length (d :: ds)) ((d :: ds) ++ r) = r).
  { now rewrite skipn_app, skipn_all, Nat.sub_diag. }
  assert (G : number_len ((d :: ds) ++ r) = (TOK_INT, length (d :: ds))).
  { unfold number_len.
    assert (Pz : forall a x, letter x -> bs a = [48; x] -> is_prefix (bs a) ((d :: ds) ++ r) = false).
    { intros a x Lx ->. cbn [app is_prefix]. destruct (48 =? d); auto. cbn [andb].
      destruct ds as [|d2 ds]; cbn [app].
      - destruct r as [|c r]; auto. destruct (N.eqb_spec x c) as [->|]; auto.
        destruct Hr as [Hr _]. destruct Hr. now left.
      - inversion Fd; subst. destruct (N.eqb_spec x d2) as [->|]; auto. unfold letter, digit in *. lia. }
    rewrite (Pz "0x"%string 120) by (reflexivity || (unfold letter; lia)).
    rewrite (Pz "0X"%string 88) by (reflexivity || (unfold letter; lia)).
    rewrite (Pz "0b"%string 98) by (reflexivity || (unfold letter; lia)).
    rewrite (Pz "0B"%string 66) by (reflexivity || (unfold letter; lia)).
    rewrite (Pz "0o"%string 111) by (reflexivity || (unfold letter; lia)).
    rewrite (Pz "0O"%string 79) by (reflexivity || (unfold letter; lia)).
    cbn [orb]. rewrite Sp. unfold fraction. rewrite Sk.
    assert (Fr : is_prefix (bs ".") r && negb (is_prefix (bs "..") r) = false).
    { destruct r as [|c r]; auto. destruct Hr as [_ Hr]. change (bs ".") with [46]. change (bs "..") with [46; 46].
      cbn [is_prefix]. destruct (N.eqb_spec 46 c) as [<-|]; auto. destruct (Hr eq_refl) as [r'' ->].
      reflexivity. }
    rewrite Fr. unfold exponent. rewrite Sk. destruct r as [|c r].
    - cbn [orb]. unfold suffix_len. now rewrite Sk.
    - destruct Hr as [Hr _].
      assert (Ec : (c =? 101) || (c =? 69) = false).
      { apply not_true_iff_false. intros X. apply Hr. left. unfold letter.
        apply orb_true_iff in X. rewrite !N.eqb_eq in X. lia. }
      rewrite Ec. cbn [orb]. unfold suffix_len. rewrite Sk.
      replace (is_ident_start c) with false; auto.
      symmetry. apply not_true_iff_false. intros X. apply is_ident_start_letter in X. apply Hr. now left. }
  change (d :: ds ++ r) with ((d :: ds) ++ r) in B. rewrite G in B. unfold text. injection B as <- <- _.
  split; auto. now rewrite Es.
Qed.
Print Assumptions C54_decimal.

(** ** Concrete cases *)
Definition demo : bytes := bs "let x = a<<=2; // shift
r'\n' 'c' /* b */ 1..9".
Example C26_example : ends_well demo /\
  exists ts, lex_all (S (length demo)) (Lex demo 0 1 1 false) = Ok ts /\
    map (text demo) ts = [bs "let"; bs "x"; bs "="; bs "a"; bs "<<="; bs "2"; bs ";"; bs "r'\n'"; bs "'c'"; bs "1"; bs ".."; bs "9"; []] /\
    map tk ts = [TOK_IDENT; TOK_IDENT; TOK_OP; TOK_IDENT; TOK_OP; TOK_INT; TOK_SEMICOLON; TOK_RAW_STRING; TOK_CHAR; TOK_INT; TOK_DOTDOT; TOK_INT; TOK_EOF] /\
    Forall (fun t => tk t = TOK_CHAR -> ~ In 10 (text demo t)) ts.
Proof.
  split.
  - intros a. split; intros E; apply (f_equal (@rev N)) in E; rewrite rev_app_distr in E; discriminate.
  - eexists. split; [vm_compute; reflexivity|]. splits; [vm_compute; reflexivity..|].
    repeat constructor; cbn; intros X; try discriminate. intuition discriminate.
Qed.
