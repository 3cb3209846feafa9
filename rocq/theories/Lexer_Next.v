(** What lexer_next returns. *)
From Verif Require Import Common Lexer_Model Lexer_Spec Lexer_Proofs Lexer_Munch.
Local Open Scope N_scope.

Lemma operator_len s : s <> [] -> (1 <= snd (operator s) <= length s)%nat /\ fst (operator s) <> TOK_EOF /\
  fst (operator s) <> TOK_CHAR /\
  (forall c t, s = c :: t -> c <> 10 -> nonl (snd (operator s)) s).
Proof.
  intros Hs. destruct (operator_munch s Hs) as [M _]. destruct (operator s) as [ty len] eqn:Eo. cbn [fst snd] in *.
  destruct (find _ operators) as [[o ty']|] eqn:F.
  - apply find_some in F. destruct F as [Io F]. apply andb_true_iff in F. destruct F as [P L]. cbn [fst] in P, L.
    apply Nat.eqb_eq in L. subst ty'.
    assert (Q : (1 <= length o)%nat /\ ~ In 10 o /\ ty <> TOK_EOF /\ ty <> TOK_CHAR).
    { clear - Io. ops. cbn [In] in Io.
      repeat (destruct Io as [Io|Io]; [injection Io as <- <-; cbn; splits; try lia; try easy; intuition discriminate|]). easy. }
    destruct Q as (Q1 & Q2 & Q3 & Q4). pose proof (pre_len _ _ P). splits; auto; try lia.
    intros c t _ _. rewrite <- L. now apply nonl_pre.
  - destruct M as [-> ->]. splits; try easy; [destruct s; [easy|cbn; lia]|].
    intros c t -> N. unfold nonl. cbn. intros [->|[]]. easy.
Qed.

(** ** One token *)
Lemma keyword_ty w t : keyword w = Some t -> t <> TOK_EOF /\ t <> TOK_CHAR.
Proof.
  unfold keyword. repeat (destruct (beq_bytes w _); [intros [= <-]; easy|]). discriminate.
Qed.

Lemma lex_token_cons s c t : s = c :: t -> lex_token s =
    if c =? 35 then Ok (TOK_PREPROC, preproc_len s, MLines (preproc_lines s))
    else
      let w := firstn (span is_ident_char s) s in
      let fstr := is_prefix [102; 34] s in
      let rstr := is_prefix [114; 34] s || is_prefix [114; 39] s in
      if is_ident_start c && match keyword w with Some _ => true | None => negb (fstr || rstr) end
      then Ok (match keyword w with Some t => t | None => TOK_IDENT end, length w, MCol)
      else if fstr then do n <- string_len 1 s; Ok (TOK_FSTRING, n, MText)
      else if rstr then Ok (TOK_RAW_STRING, raw_len (nth 1 s 0) s, MText)
      else if isdigit c then let (ty, n) := number_len s in Ok (ty, n, MCol)
      else if c =? 34 then do n <- string_len 0 s; Ok (TOK_STRING, n, MText)
      else if c =? 39 then do n <- char_len s; Ok (TOK_CHAR, n, MCol)
      else let (ty, n) := operator s in Ok (ty, n, MCol).
Proof. intros ->. reflexivity. Qed.

Lemma lex_token_ok s c t : s = c :: t -> isspace c = false ->
  (lex_token s = UB /\ ~ safe s) \/
  exists ty len m, lex_token s = Ok (ty, len, m) /\ (1 <= len <= length s)%nat /\ ty <> TOK_EOF /\
   ((ty = TOK_CHAR -> ~ In 10 (firstn len s)) ->
     (forall k, move_line m (firstn len s) k = adv_line (firstn len s) k) /\
     ((forall k, move_col m (firstn len s) k = adv_col (firstn len s) k) \/
      (skipn len s = [] \/ exists r, skipn len s = 10 :: r))).
Proof.
  intros Es Hc. rewrite (lex_token_cons s c t Es). cbv zeta.
  assert (c <> 10). { intros ->. discriminate. }
  destruct (N.eqb_spec c 35) as [->|N35].
  { destruct (preproc_ok s) as (A & B & C).
    right. eexists _, _, _. split; [reflexivity|]. splits; try easy; try lia.
    - rewrite Es. cbn [preproc_len]. change (35 =? 10) with false. change (35 =? 92) with false. cbn iota. lia.
    - intros _. split; auto. intros k. cbn [move_line]. rewrite B. lia. }
  assert (MC : forall len, nonl len s ->
     (forall k, move_line MCol (firstn len s) k = adv_line (firstn len s) k) /\
     ((forall k, move_col MCol (firstn len s) k = adv_col (firstn len s) k) \/
      (skipn len s = [] \/ exists r, skipn len s = 10 :: r))).
  { intros len N. split; [|left]; intros k; cbn [move_line move_col].
    - now rewrite adv_line_nonl. - now rewrite adv_col_nonl. }
  assert (MT : forall len,
     (forall k, move_line MText (firstn len s) k = adv_line (firstn len s) k) /\
     ((forall k, move_col MText (firstn len s) k = adv_col (firstn len s) k) \/
      (skipn len s = [] \/ exists r, skipn len s = 10 :: r))).
  { intros len. split; [|left]; intros k; reflexivity. }
  set (w := firstn (span is_ident_char s) s).
  set (fstr := is_prefix [102; 34] s).
  set (rstr := is_prefix [114; 34] s || is_prefix [114; 39] s).
  destruct (is_ident_start c && match keyword w with Some _ => true | None => negb (fstr || rstr) end) eqn:Ei.
  { apply andb_true_iff in Ei. destruct Ei as [Ei _].
    pose proof (span_le is_ident_char s) as L1.
    assert (Lw : length w = span is_ident_char s). { unfold w. rewrite firstn_length. lia. }
    right. eexists _, _, _. split; [reflexivity|]. rewrite Lw. splits; try lia.
    - rewrite Es. cbn. unfold is_ident_start in Ei. unfold is_ident_char, isalnum.
      destruct (isalpha c), (c =? 95), (isdigit c); cbn in *; try easy; lia.
    - destruct (keyword w) eqn:K; [|easy]. now apply keyword_ty in K.
    - intros _. apply MC. now apply nonl_span. }
  clear Ei. destruct fstr eqn:Ef.
  { pose proof (pre_len _ _ Ef) as Lf. cbn [length] in Lf.
    destruct (string_len_ok 1 s) as [[-> U]|(n & -> & B)]; [lia|now left|]. cbn [bind].
    right. eexists _, _, _. split; [reflexivity|]. splits; try easy; try lia. }
  destruct rstr eqn:Er.
  { assert (2 <= length s)%nat.
    { unfold rstr in Er. apply orb_true_iff in Er. destruct Er as [Er|Er]; apply pre_len in Er; cbn in Er; lia. }
    pose proof (raw_len_ok (nth 1 s 0) s ltac:(lia)).
    right. eexists _, _, _. split; [reflexivity|]. splits; try easy; try lia. }
  destruct (isdigit c) eqn:Ed.
  { destruct (number_len_ok s c t Es Ed) as (A & B & C). destruct (number_len s) as [ty n]. cbn [fst snd] in *.
    right. eexists _, _, _. split; [reflexivity|]. splits; try lia. { destruct C; subst; easy. } intros _. now apply MC. }
  destruct (N.eqb_spec c 34) as [E34|N34].
  { destruct (string_len_ok 0 s) as [[-> U]|(n & -> & B)]; [rewrite Es; cbn; lia|now left|]. cbn [bind].
    right. eexists _, _, _. split; [reflexivity|]. splits; try easy; try lia. }
  destruct (N.eqb_spec c 39) as [E39|N39].
  { destruct (char_len_ok s c t Es E39) as [[-> U]|(n & -> & B)]; [now left|]. cbn [bind].
    right. eexists _, _, _. split; [reflexivity|]. splits; try easy; try lia. intros Nn. apply MC. now apply Nn. }
  destruct (operator_len s) as (A & B & C & D). { now rewrite Es. }
  destruct (operator s) as [ty n]. cbn [fst snd] in *.
  right. eexists _, _, _. split; [reflexivity|]. splits; try easy; try lia. intros _. apply MC. now apply (D c t).
Qed.

(** ** Comments *)
Lemma block_body_ok s : (block_body s <= length s)%nat /\
  ~ occurs (bs "*/") (firstn (block_body s) s) /\
  (skipn (block_body s) s = [] \/ is_prefix (bs "*/") (skipn (block_body s) s) = true).
Proof.
  induction s as [|c t IH]; cbn [block_body].
  - cbn. splits; auto. intros (a & b & E). destruct a; discriminate.
  - destruct (is_prefix (bs "*/") (c :: t)) eqn:E.
    + cbn [firstn skipn length]. splits; auto; try lia. intros (a & b & E'). destruct a; discriminate.
    + destruct IH as (A & B & C). cbn [firstn skipn length]. splits; auto; try lia.
      intros (a & b & E'). destruct a as [|x a].
      * cbn in E'. destruct t as [|d t]; [cbn in E'; discriminate|].
        destruct (block_body (d :: t)) as [|k] eqn:Ek; cbn in E'; [discriminate|].
        injection E' as -> -> _. cbn in E. discriminate.
      * cbn in E'. injection E' as _ E'. apply B. now exists a, b.
Qed.

Lemma Gap_app_blank emit w s s' : Forall (fun c => isspace c = true) w -> Gap emit s s' -> Gap emit (w ++ s) s'.
Proof. intros F G. induction F; cbn; auto. apply Gap_blank; auto. now apply isspace_blank. Qed.

(** ** lexer_next *)
Definition lok (l : lexer) : Prop := lline l = adv_line (firstn (lpos l) (lsrc l)) 1.
Definition cok (l : lexer) : Prop := lcol l = adv_col (firstn (lpos l) (lsrc l)) 1.
Definition cok' (l : lexer) : Prop :=
  cok l \/ (skipn (lpos l) (lsrc l) = [] \/ exists r, skipn (lpos l) (lsrc l) = 10 :: r).

(** the token at [s]: a comment, or what lex_token finds *)
Definition here (emit : bool) (s : bytes) (ty : tokty) (len : nat) : Prop :=
  if is_prefix (bs "//") s then ty = TOK_COMMENT /\ len = (2 + span (fun c => negb (c =? 10)%N) (skipn 2 s))%nat
  else if is_prefix (bs "/*") s then
    ty = TOK_COMMENT /\
    len = (2 + block_body (skipn 2 s) +
           (if is_prefix (bs "*/") (skipn (2 + block_body (skipn 2 s)) s) then 2 else 0))%nat
  else exists m, lex_token s = Ok (ty, len, m).

Definition next_spec (l : lexer) (t : token) (l' : lexer) : Prop :=
  lsrc l' = lsrc l /\ lemit l' = lemit l /\ (lpos l' = tpos t + tlen t)%nat /\ (lpos l' <= length (lsrc l))%nat /\
  ((tk t = TOK_EOF /\ tpos t = length (lsrc l) /\ tlen t = 0%nat /\
    Gap (lemit l) (skipn (lpos l) (lsrc l)) []) \/
   (tk t <> TOK_EOF /\ (lpos l <= tpos t)%nat /\
    Gap (lemit l) (skipn (lpos l) (lsrc l)) (skipn (tpos t) (lsrc l)) /\
    gap_ends (lemit l) (skipn (tpos t) (lsrc l)) /\ (0 < tlen t)%nat /\
    here (lemit l) (skipn (tpos t) (lsrc l)) (tk t) (tlen t))) /\
  (lok l -> tline t = adv_line (firstn (tpos t) (lsrc l)) 1 /\
    ((tk t = TOK_CHAR -> ~ In 10 (text (lsrc l) t)) -> lok l')) /\
  (~ occurs (bs "/*") (lsrc l) -> cok' l ->
    (tk t = TOK_EOF \/ tcol t = adv_col (firstn (tpos t) (lsrc l)) 1) /\
    ((tk t = TOK_CHAR -> ~ In 10 (text (lsrc l) t)) -> cok' l')).

Lemma firstn_pos (src : bytes) p n : (p + n <= length src)%nat ->
  firstn (p + n) src = firstn p src ++ firstn n (skipn p src).
Proof. intros _. apply firstn_add. Qed.

Lemma next_ok fuel : forall l, (length (lsrc l) - lpos l < fuel)%nat -> (lpos l <= length (lsrc l))%nat ->
  (lexer_next_f fuel l = UB /\ ~ safe (lsrc l)) \/
  exists t l', lexer_next_f fuel l = Ok (t, l') /\ next_spec l t l'.
Proof.
  induction fuel as [|fuel IH]; intros l Lf Lp; [lia|]. cbn [lexer_next_f].
  destruct l as [src p ln co emit]. cbn [lsrc lpos lline lcol lemit] in *.
  set (s0 := skipn p src). set (n := span isspace s0). set (s := skipn n s0).
  assert (Ln : (n <= length s0)%nat) by apply span_le.
  assert (Ls0 : length s0 = (length src - p)%nat) by apply skipn_length.
  assert (Es : s = skipn (p + n) src). { unfold s, s0. apply skipn_skipn'. }
  assert (Eq0 : s0 = firstn n s0 ++ s) by (symmetry; apply firstn_skipn).
  assert (Ws : Forall (fun c => isspace c = true) (firstn n s0)) by apply span_all.
  assert (Fp : firstn (p + n) src = firstn p src ++ firstn n s0) by apply firstn_add.
  assert (LO : lok (Lex src p ln co emit) -> adv_line (firstn n s0) ln = adv_line (firstn (p + n) src) 1).
  { unfold lok. cbn. intros ->. rewrite Fp, adv_line_app. reflexivity. }
  assert (CO : cok' (Lex src p ln co emit) -> s = [] \/ adv_col (firstn n s0) co = adv_col (firstn (p + n) src) 1).
  { unfold cok', cok. cbn [lsrc lpos lcol]. fold s0. rewrite Fp, adv_col_app. intros [->|[E|[r E]]]; auto.
    - left. unfold s. rewrite E. apply skipn_nil.
    - right. rewrite E. destruct n eqn:En. { exfalso. unfold n in En. rewrite E in En. cbn in En. discriminate. }
      cbn [firstn adv_col]. unfold step_col. change (10 =? 10) with true. reflexivity. }
  pose proof (span_stop isspace s0) as St. fold n in St. fold s in St.
  assert (Lsl : length s = (length src - (p + n))%nat). { rewrite Es. apply skipn_length. }
  destruct s as [|c t] eqn:Esc.
  { cbn [length] in Lsl.
    right. eexists _, _. split; [reflexivity|].
    unfold next_spec. cbn [lsrc lpos lline lcol lemit tk tpos tlen tline tcol]. splits; auto; try lia.
    - left. splits; auto; [lia|]. fold s0. rewrite Eq0. apply Gap_app_blank; auto. constructor.
    - intros L. split; auto. intros _. unfold lok. cbn [lsrc lpos lline]. auto.
    - intros _ C. split; auto. intros _. right. left. cbn [lsrc lpos]. now rewrite <- Es. }
  assert (Gw : forall s', Gap emit s s' -> Gap emit s0 s').
  { intros s' G. rewrite Eq0, <- Esc. now apply Gap_app_blank. }
  rewrite <- Esc in *. clearbody s.
  assert (Fl : forall len, firstn (p + n + len) src = firstn (p + n) src ++ firstn len s).
  { intros len. rewrite Es. apply firstn_add. }
  assert (Sk : forall len, skipn (p + n + len) src = skipn len s).
  { intros len. rewrite Es. symmetry. apply skipn_skipn'. }
  assert (Hs : ~ safe s -> ~ safe src). { rewrite Es. intros X Y. apply X. now apply safe_skipn. }
  (* the token starts here *)
  assert (Here : forall ty len ln' co', ty <> TOK_EOF -> (1 <= len <= length s)%nat -> gap_ends emit s -> here emit s ty len ->
    (lok (Lex src p ln co emit) -> (ty = TOK_CHAR -> ~ In 10 (firstn len s)) -> ln' = adv_line (firstn (p + n + len) src) 1) ->
    (~ occurs (bs "/*") src -> cok' (Lex src p ln co emit) -> (ty = TOK_CHAR -> ~ In 10 (firstn len s)) ->
       cok' (Lex src (p + n + len) ln' co' emit)) ->
    next_spec (Lex src p ln co emit) (Tok ty (p + n) len (adv_line (firstn n s0) ln) (adv_col (firstn n s0) co))
      (Lex src (p + n + len) ln' co' emit)).
  { intros ty len ln' co' T1 T2 T3 T3' T4 T5. unfold next_spec.
    cbn [lsrc lpos lline lcol lemit tk tpos tlen tline tcol]. unfold text. cbn [tpos tlen]. rewrite <- Es.
    splits; auto; try lia.
    - right. splits; auto; try lia. apply Gw. constructor.
    - intros L. split; auto. intros X. unfold lok. cbn [lsrc lpos lline]. auto.
    - intros NB C. split; auto. destruct (CO C) as [C'|C']; auto. rewrite C' in T2. cbn in T2. lia. }
  assert (Nb : forall c' r', s = c' :: r' -> ~ blank c').
  { intros c' r' E B. rewrite E in Esc. injection Esc as -> _. apply isspace_blank in B. congruence. }
  (* a comment is skipped *)
  assert (Skip : forall len ln' co', (1 <= len <= length s)%nat -> emit = false ->
    (forall s', Gap emit (skipn len s) s' -> Gap emit s s') ->
    (lok (Lex src p ln co emit) -> ln' = adv_line (firstn (p + n + len) src) 1) ->
    (~ occurs (bs "/*") src -> cok' (Lex src p ln co emit) -> cok' (Lex src (p + n + len) ln' co' emit)) ->
    (lexer_next_f fuel (Lex src (p + n + len) ln' co' emit) = UB /\ ~ safe src) \/
    exists t l', lexer_next_f fuel (Lex src (p + n + len) ln' co' emit) = Ok (t, l') /\
      next_spec (Lex src p ln co emit) t l').
  { intros len ln' co' T2 Em T3 T4 T5.
    destruct (IH (Lex src (p + n + len) ln' co' emit)) as [U|(t1 & l1 & E1 & A1 & A2 & A3 & A4 & A5 & A6 & A7)];
      cbn [lsrc lpos]; auto; try lia.
    right. exists t1, l1. split; auto. unfold next_spec. cbn [lsrc lpos lline lcol lemit] in *. splits; auto.
    - destruct A5 as [(B1 & B2 & B3 & B4)|(B1 & B2 & B3 & B4 & B5 & B6)]; [left|right]; splits; auto; try lia.
      + apply Gw, T3. now rewrite <- Sk.
      + apply Gw, T3. now rewrite <- Sk.
    - intros L. apply A6. unfold lok. cbn. auto. }
  assert (NLO : lok (Lex src p ln co emit) -> forall len, adv_line (firstn (p + n + len) src) 1 =
     adv_line (firstn len s) (adv_line (firstn n s0) ln)).
  { intros L len. rewrite Fl, adv_line_app, LO; auto. }
  destruct (is_prefix (bs "//") s) eqn:E1.
  { set (k := span (fun c => negb (c =? 10)) (skipn 2 s)).
    assert (Lk : (k <= length (skipn 2 s))%nat) by apply span_le. rewrite skipn_len' in Lk.
    pose proof (pre_len _ _ E1) as L2. change (length (bs "//")) with 2%nat in L2.
    assert (Nk : nonl (2 + k) s).
    { apply nonl_add. { apply (nonl_pre _ _ E1). cbn. intuition discriminate. } now apply nonl_span. }
    assert (T4 : lok (Lex src p ln co emit) -> adv_line (firstn n s0) ln = adv_line (firstn (p + n + (2 + k)) src) 1).
    { intros L. rewrite NLO by auto. now rewrite (adv_line_nonl _ _ Nk). }
    assert (T5 : cok' (Lex src p ln co emit) -> cok' (Lex src (p + n + (2 + k)) (adv_line (firstn n s0) ln) (adv_col (firstn n s0) co + (2 + k)) emit)).
    { intros C. destruct (CO C) as [C'|C']. { rewrite C' in L2. cbn in L2. lia. }
      left. unfold cok. cbn [lsrc lpos lcol]. rewrite Fl, adv_col_app, C', (adv_col_nonl _ _ Nk).
      rewrite firstn_length. lia. }
    destruct emit.
    - right. eexists _, _. split; [reflexivity|]. apply Here; auto; try easy; try lia. unfold here. now rewrite E1.
    - apply Skip; auto; try lia. intros s' G. apply pre_ex in E1. change (length (bs "//")) with 2%nat in E1.
      rewrite E1. rewrite <- (firstn_skipn k (skipn 2 s)). apply Gap_line; auto.
      + pose proof (nonl_span (fun c => negb (c =? 10)) (skipn 2 s)) as X. apply X. reflexivity.
      + pose proof (span_stop (fun c => negb (c =? 10)) (skipn 2 s)) as X. fold k in X.
        destruct (skipn k (skipn 2 s)) as [|x r]; auto. right. exists r.
        apply negb_false_iff, N.eqb_eq in X. now subst.
      + rewrite skipn_skipn'. exact G. }
  destruct (is_prefix (bs "/*") s) eqn:E2.
  { pose proof (pre_len _ _ E2) as L2. change (length (bs "/*")) with 2%nat in L2.
    destruct (block_body_ok (skipn 2 s)) as (B1 & B2 & B3). rewrite skipn_len' in B1.
    set (k := block_body (skipn 2 s)) in *. rewrite skipn_skipn' in B3.
    set (cl := is_prefix (bs "*/") (skipn (2 + k) s)) in *.
    set (len := (2 + k + (if cl then 2 else 0))%nat).
    assert (Ll : (1 <= len <= length s)%nat).
    { unfold len. destruct cl eqn:Ecl; [|lia]. apply pre_len in Ecl. rewrite skipn_len' in Ecl. cbn [bs length] in Ecl. lia. }
    assert (T4 : lok (Lex src p ln co emit) ->
       adv_line (firstn k (skipn 2 s)) (adv_line (firstn n s0) ln) = adv_line (firstn (p + n + len) src) 1).
    { intros L. rewrite NLO by auto. unfold len. rewrite firstn_add, firstn_add, !adv_line_app.
      rewrite (adv_line_nonl (firstn 2 s)). 2:{ apply (nonl_pre _ _ E2). cbn. intuition discriminate. }
      symmetry. apply adv_line_nonl. destruct cl eqn:Ecl.
      - apply (nonl_pre _ _ Ecl). cbn. intuition discriminate.
      - cbn. tauto. }
    assert (T5 : ~ occurs (bs "/*") src -> False).
    { intros NB. apply NB. exists (firstn (p + n) src), (skipn 2 s).
      apply pre_ex in E2. change (length (bs "/*")) with 2%nat in E2. rewrite <- E2, Es. symmetry. apply firstn_skipn. }
    destruct emit.
    - right. eexists _, _. split; [reflexivity|]. apply Here; auto; try easy; try lia. unfold here. now rewrite E1, E2.
    - apply Skip; auto; try easy. intros s' G. apply pre_ex in E2. change (length (bs "/*")) with 2%nat in E2.
      rewrite E2. rewrite <- (firstn_skipn k (skipn 2 s)), skipn_skipn'.
      unfold len in G. destruct cl eqn:Ecl.
      + apply pre_ex in Ecl. change (length (bs "*/")) with 2%nat in Ecl. rewrite Ecl. apply Gap_block; auto.
        rewrite skipn_skipn'. exact G.
      + destruct B3 as [B3|B3]; [|discriminate]. rewrite B3, app_nil_r.
        rewrite Nat.add_0_r, B3 in G. inversion G; subst. apply Gap_open; auto. }
  destruct (lex_token_ok s c t Esc) as [[Et U]|(ty & len & m & Et & Bl & Ne & Mv)]; auto.
  { left. rewrite Et. split; auto. }
  rewrite Et. cbn [bind].
  right. eexists _, _. split; [reflexivity|]. apply Here; auto; try lia.
  - split; auto. intros _ r. split; apply pre_false; auto.
  - unfold here. rewrite E1, E2. eauto.
  - intros L N. destruct (Mv N) as [M1 _]. rewrite M1, NLO; auto.
  - intros NB C N. destruct (Mv N) as [_ [M2|M2]].
    + left. unfold cok. cbn [lsrc lpos lcol]. rewrite M2, Fl, adv_col_app.
      destruct (CO C) as [C'|C']; [rewrite C' in Esc; discriminate|]. now rewrite C'.
    + right. cbn [lsrc lpos]. now rewrite Sk.
Qed.
