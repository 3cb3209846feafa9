(** Proofs about the lexer. *)
From Verif Require Import Common Lexer_Model Lexer_Spec.
Local Open Scope N_scope.

(** ** Generic *)
Lemma span_le p s : (span p s <= length s)%nat.
Proof. induction s; cbn; [lia|]. destruct (p a); lia. Qed.

Lemma span_all p s : Forall (fun c => p c = true) (firstn (span p s) s).
Proof. induction s; cbn; [constructor|]. destruct (p a) eqn:E; cbn; constructor; auto. Qed.

Lemma span_stop p s : match skipn (span p s) s with c :: _ => p c = false | [] => True end.
Proof. induction s; cbn; auto. destruct (p a) eqn:E; cbn; auto. Qed.

Lemma span_max p a s : Forall (fun c => p c = true) a ->
  match s with c :: _ => p c = false | [] => True end -> span p (a ++ s) = length a.
Proof.
  intros F. induction F; cbn; intros H0.
  - destruct s; cbn; auto. now rewrite H0.
  - rewrite H, IHF; auto.
Qed.

Lemma pre_ex p s : is_prefix p s = true -> s = p ++ skipn (length p) s.
Proof. intros H. apply is_prefix_spec in H. destruct H as [r ->]. rewrite skipn_app, skipn_all, Nat.sub_diag. reflexivity. Qed.

Lemma pre_len p s : is_prefix p s = true -> (length p <= length s)%nat.
Proof. intros H. apply is_prefix_spec in H. destruct H as [r ->]. rewrite app_length. lia. Qed.

Lemma pre_app p s : is_prefix p (p ++ s) = true.
Proof. apply is_prefix_spec; eauto. Qed.

Lemma pre_false p s : is_prefix p s = false -> forall r, s <> p ++ r.
Proof. intros H r ->. rewrite pre_app in H. discriminate. Qed.

Lemma firstn_add {A} a b (s : list A) : firstn (a + b) s = firstn a s ++ firstn b (skipn a s).
Proof. revert s; induction a; intros s; cbn; auto. destruct s; cbn; [now rewrite firstn_nil|]. now rewrite IHa. Qed.

Lemma skipn_len' {A} n (s : list A) : length (skipn n s) = (length s - n)%nat.
Proof. apply skipn_length. Qed.

(** ** Positions *)
Lemma adv_line_app a b n : adv_line (a ++ b) n = adv_line b (adv_line a n).
Proof. revert n; induction a; cbn; auto. Qed.
Lemma adv_col_app a b n : adv_col (a ++ b) n = adv_col b (adv_col a n).
Proof. revert n; induction a; cbn; auto. Qed.

Lemma adv_line_nonl a n : ~ In 10 a -> adv_line a n = n.
Proof.
  revert n; induction a; cbn; auto. intros n H.
  unfold step_line. destruct (N.eqb_spec a 10); [tauto|]. apply IHa. tauto.
Qed.
Lemma adv_col_nonl a n : ~ In 10 a -> adv_col a n = (n + length a)%nat.
Proof.
  revert n; induction a; cbn; auto. intros n H.
  unfold step_col. destruct (N.eqb_spec a 10); [tauto|]. rewrite IHa by tauto. lia.
Qed.

Lemma adv_line_count a n : adv_line a n = (n + count_occ N.eq_dec a 10%N)%nat.
Proof.
  revert n; induction a; cbn; auto. intros n. rewrite IHa. unfold step_line.
  destruct (N.eqb_spec a 10), (N.eq_dec a 10); try easy; lia.
Qed.

Lemma adv_line_shift a n k : adv_line a (n + k)%nat = (adv_line a n + k)%nat.
Proof. rewrite !adv_line_count. lia. Qed.

(** ** Byte classes *)
Lemma isspace_blank c : isspace c = true <-> blank c.
Proof.
  unfold isspace, blank. cbn [In]. split.
  - intros H. apply orb_true_iff in H. rewrite andb_true_iff, !N.leb_le, N.eqb_eq in H. lia.
  - intros H. apply orb_true_iff. rewrite andb_true_iff, !N.leb_le, N.eqb_eq. lia.
Qed.

Lemma is_ident_start_letter c : is_ident_start c = true <-> letter c.
Proof.
  unfold is_ident_start, isalpha, letter.
  rewrite !orb_true_iff, !andb_true_iff, !N.leb_le, N.eqb_eq. lia.
Qed.
Lemma isdigit_digit c : isdigit c = true <-> digit c.
Proof. unfold isdigit, digit. rewrite andb_true_iff, !N.leb_le. lia. Qed.
Lemma is_ident_char_word c : is_ident_char c = true <-> word_char c.
Proof.
  unfold is_ident_char, isalnum, isalpha, isdigit, word_char, letter, digit.
  rewrite !orb_true_iff, !andb_true_iff, !N.leb_le, N.eqb_eq. lia.
Qed.

(** no newline among the first n bytes *)
Definition nonl (n : nat) (s : bytes) : Prop := ~ In 10 (firstn n s).
Lemma nonl_add a b s : nonl a s -> nonl b (skipn a s) -> nonl (a + b) s.
Proof. unfold nonl. rewrite firstn_add, in_app_iff. tauto. Qed.
Lemma nonl_span p s : p 10 = false -> nonl (span p s) s.
Proof.
  unfold nonl. intros H0 H. pose proof (span_all p s) as F. rewrite Forall_forall in F. apply F in H. congruence.
Qed.
Lemma nonl_pre p s : is_prefix p s = true -> ~ In 10 p -> nonl (length p) s.
Proof.
  intros H H0. apply pre_ex in H. unfold nonl. rewrite H, firstn_app, firstn_all, Nat.sub_diag. cbn.
  now rewrite app_nil_r.
Qed.

(** ** Last byte *)
Definition safe (s : bytes) : Prop := ends_well s.

Lemma safe_skipn n s : safe s -> safe (skipn n s).
Proof.
  intros H a. destruct (H (firstn n s ++ a)) as [H1 H2].
  split; intros E; [apply H1|apply H2]; rewrite <- app_assoc, <- E; symmetry; apply firstn_skipn.
Qed.
Lemma safe_tl c s : safe (c :: s) -> safe s.
Proof. apply (safe_skipn 1 (c :: s)). Qed.
Lemma safe_sing c : safe [c] -> c <> 92 /\ c <> 39.
Proof. intros H. destruct (H []) as [A B]. split; intros ->; auto. Qed.

(** ** Token lengths *)
Lemma quoted_ok_len n : forall s, (length s <= n)%nat ->
  (quoted s = UB /\ ~ safe s) \/ exists k, quoted s = Ok k /\ (k <= length s)%nat.
Proof.
  induction n; intros s L; destruct s as [|c t]; cbn [quoted].
  - right. exists 0%nat; cbn; auto.
  - cbn in L; lia.
  - right. exists 0%nat; cbn; auto.
  - destruct (c =? 34)%N. { right. exists 0%nat; split; auto; lia. }
    destruct (N.eqb_spec c 92) as [->|].
    + destruct t as [|d t']. { left. split; auto. intros H. now destruct (safe_sing 92 H). }
      destruct (IHn t') as [[E S]|(k & E & Lk)]. { cbn in L |- *; lia. }
      { left. rewrite E. split; auto. intros H. apply S. apply (safe_skipn 2 _ H). }
      right. rewrite E. cbn. exists (S (S k)). cbn. split; auto; lia.
    + destruct (IHn t) as [[E S]|(k & E & Lk)]. { cbn in L; lia. }
      { left. rewrite E. split; auto. intros H. apply S. apply (safe_tl _ _ H). }
      right. rewrite E. cbn. exists (S k). cbn. split; auto; lia.
Qed.
Lemma quoted_ok s : (quoted s = UB /\ ~ safe s) \/ exists k, quoted s = Ok k /\ (k <= length s)%nat.
Proof. apply (quoted_ok_len (length s)). lia. Qed.

Lemma tripled_le s : (tripled s <= length s)%nat.
Proof. induction s; cbn [tripled length]; [lia|]. destruct (is_prefix _ _); lia. Qed.

Lemma raw_quoted_le_len q n : forall s, (length s <= n)%nat -> (raw_quoted q s <= length s)%nat.
Proof.
  induction n; intros s L; destruct s as [|c t]; cbn [raw_quoted length] in *; try lia.
  destruct (c =? q); [lia|]. destruct (c =? 92).
  - destruct t as [|d t']; [cbn; lia|]. destruct (d =? q).
    + specialize (IHn t'). cbn [length] in *. lia.
    + specialize (IHn (d :: t')). cbn [length] in *. lia.
  - specialize (IHn t). lia.
Qed.
Lemma raw_quoted_le q s : (raw_quoted q s <= length s)%nat.
Proof. apply (raw_quoted_le_len q (length s)). lia. Qed.

Lemma close_len_bounds m q s len : (len <= length s)%nat -> (len <= close_len m q s len <= length s)%nat.
Proof.
  intros L. unfold close_len.
  destruct (m && is_prefix [34; 34; 34] (skipn len s)) eqn:E1.
  - apply andb_true_iff in E1. destruct E1 as [_ E]. apply pre_len in E. rewrite skipn_len' in E. cbn in E. lia.
  - destruct (negb m && is_prefix [q] (skipn len s)) eqn:E2; [|lia].
    apply andb_true_iff in E2. destruct E2 as [_ E]. apply pre_len in E. rewrite skipn_len' in E. cbn in E. lia.
Qed.

Lemma string_len_ok k s : (k < length s)%nat ->
  (string_len k s = UB /\ ~ safe s) \/ exists n, string_len k s = Ok n /\ (k < n <= length s)%nat.
Proof.
  intros L. unfold string_len.
  destruct (is_prefix [34; 34; 34] (skipn k s)) eqn:E; cbn [bind].
  - right. apply pre_len in E. rewrite skipn_len' in E. cbn [length] in E.
    eexists; split; [reflexivity|].
    pose proof (tripled_le (skipn (k + 3) s)) as T. rewrite skipn_len' in T.
    pose proof (close_len_bounds true 34 s (k + 3 + tripled (skipn (k + 3) s))). lia.
  - destruct (quoted_ok (skipn (k + 1) s)) as [[-> U]|(n & -> & T)].
    { left. split; auto. intros H. apply U. now apply safe_skipn. }
    cbn [bind]. right. eexists; split; [reflexivity|]. rewrite skipn_len' in T.
    pose proof (close_len_bounds false 34 s (k + 1 + n)). lia.
Qed.

Lemma raw_len_ok q s : (2 <= length s)%nat -> (2 <= raw_len q s <= length s)%nat.
Proof.
  intros L. unfold raw_len.
  destruct ((q =? 34) && is_prefix [34; 34; 34] (skipn 1 s)) eqn:E.
  - apply andb_true_iff in E. destruct E as [_ E]. apply pre_len in E. rewrite skipn_len' in E. cbn [length] in E.
    pose proof (tripled_le (skipn 4 s)) as T. rewrite skipn_len' in T.
    pose proof (close_len_bounds true q s (4 + tripled (skipn 4 s))). lia.
  - pose proof (raw_quoted_le q (skipn 2 s)) as T. rewrite skipn_len' in T.
    pose proof (close_len_bounds false q s (2 + raw_quoted q (skipn 2 s))). lia.
Qed.

Lemma suffix_len_ok s len : (len <= length s)%nat -> nonl len s ->
  (len <= suffix_len s len <= length s)%nat /\ nonl (suffix_len s len) s.
Proof.
  intros L H. unfold suffix_len. destruct (skipn len s) as [|c r] eqn:E; [split; auto; lia|].
  destruct (is_ident_start c); [|split; auto; lia]. rewrite <- E.
  pose proof (span_le is_ident_char (skipn len s)) as T. rewrite skipn_len' in T.
  split; [lia|]. apply nonl_add; auto. now apply nonl_span.
Qed.

Lemma nonl_0 s : nonl 0 s.
Proof. intros []. Qed.
Lemma nonl_1 p s : is_prefix p s = true -> (0 < length p)%nat -> ~ In 10 p -> nonl 1 s.
Proof.
  intros E L H. apply pre_ex in E. destruct p as [|c p]; [cbn in L; lia|]. rewrite E. cbn. intros [->|[]].
  apply H. now left.
Qed.

Lemma fraction_ok s len : (len <= length s)%nat -> nonl len s ->
  let r := fst (fraction s len) in (len <= r <= length s)%nat /\ nonl r s.
Proof.
  intros L H. unfold fraction. destruct (is_prefix (bs ".") (skipn len s)) eqn:E; cbn [andb fst]; [|split; auto; lia].
  destruct (negb _); cbn [fst]; [|split; auto; lia].
  pose proof (pre_len _ _ E) as T. rewrite skipn_len' in T. cbn [length bs] in T.
  pose proof (span_le isdigit (skipn (len + 1) s)) as T2. rewrite skipn_len' in T2.
  split; [lia|]. apply nonl_add; [|now apply nonl_span].
  apply nonl_add; auto. apply (nonl_1 _ _ E); [cbn; lia|]. cbn. intuition discriminate.
Qed.

Lemma exponent_ok s len : (len <= length s)%nat -> nonl len s ->
  let r := fst (exponent s len) in (len <= r <= length s)%nat /\ nonl r s.
Proof.
  intros L H. unfold exponent. destruct (skipn len s) as [|c r] eqn:E; [split; auto; lia|].
  destruct ((c =? 101) || (c =? 69)) eqn:Ec; [|split; auto; lia]. cbn [fst].
  assert (Lr : (S (length r) = length s - len)%nat) by (rewrite <- skipn_len', E; reflexivity).
  assert (H1 : nonl (len + 1) s).
  { apply nonl_add; auto. rewrite E. unfold nonl. cbn. intros [->|[]]. discriminate. }
  set (len' := if is_prefix (bs "+") (skipn (len + 1) s) || is_prefix (bs "-") (skipn (len + 1) s)
               then (len + 1 + 1)%nat else (len + 1)%nat).
  assert (len + 1 <= len' <= length s /\ nonl len' s)%nat as [B1 B2].
  { unfold len'. destruct (is_prefix (bs "+") (skipn (len + 1) s)) eqn:E1;
      [|destruct (is_prefix (bs "-") (skipn (len + 1) s)) eqn:E2]; cbn [orb].
    - pose proof (pre_len _ _ E1) as T. rewrite skipn_len' in T. cbn [length bs] in T. split; [lia|].
      apply nonl_add; auto. apply (nonl_1 _ _ E1); [cbn; lia|]. cbn. intuition discriminate.
    - pose proof (pre_len _ _ E2) as T. rewrite skipn_len' in T. cbn [length bs] in T. split; [lia|].
      apply nonl_add; auto. apply (nonl_1 _ _ E2); [cbn; lia|]. cbn. intuition discriminate.
    - split; auto. lia. }
  pose proof (span_le isdigit (skipn len' s)) as T. rewrite skipn_len' in T.
  split; [lia|]. apply nonl_add; auto. now apply nonl_span.
Qed.

Lemma number_len_ok s c t : s = c :: t -> isdigit c = true ->
  (1 <= snd (number_len s) <= length s)%nat /\ nonl (snd (number_len s)) s /\
  (fst (number_len s) = TOK_INT \/ fst (number_len s) = TOK_FLOAT).
Proof.
  intros Es D. unfold number_len.
  assert (P : forall a p, is_prefix (bs a) s = true -> length (bs a) = 2%nat -> ~ In 10 (bs a) -> p 10 = false ->
    (2 <= 2 + span p (skipn 2 s) <= length s)%nat /\ nonl (2 + span p (skipn 2 s)) s).
  { intros a p E L2 N P. pose proof (pre_len _ _ E). rewrite L2 in H.
    pose proof (span_le p (skipn 2 s)) as T. rewrite skipn_len' in T. split; [lia|].
    apply nonl_add; [|now apply nonl_span]. rewrite <- L2. now apply nonl_pre. }
  assert (Q : forall x y p, is_prefix (bs x) s || is_prefix (bs y) s = true ->
     length (bs x) = 2%nat -> length (bs y) = 2%nat -> ~ In 10 (bs x) -> ~ In 10 (bs y) -> p 10 = false ->
     (1 <= suffix_len s (2 + span p (skipn 2 s)) <= length s)%nat /\ nonl (suffix_len s (2 + span p (skipn 2 s))) s).
  { intros x y p E L1 L2 N1 N2 Pp.
    assert ((2 <= 2 + span p (skipn 2 s) <= length s)%nat /\ nonl (2 + span p (skipn 2 s)) s) as [A B].
    { apply orb_true_iff in E. destruct E as [E|E]; eapply P; eauto. }
    destruct (suffix_len_ok s (2 + span p (skipn 2 s))) as [C D0]; auto; try lia. split; [lia|auto]. }
  destruct (is_prefix (bs "0x") s || is_prefix (bs "0X") s) eqn:E1.
  { cbn [fst snd]. destruct (Q _ _ isxdigit E1); auto; try (cbn; intuition discriminate). }
  destruct (is_prefix (bs "0b") s || is_prefix (bs "0B") s) eqn:E2.
  { cbn [fst snd]. destruct (Q _ _ (fun c => (c =? 48) || (c =? 49)) E2); auto; try (cbn; intuition discriminate). }
  destruct (is_prefix (bs "0o") s || is_prefix (bs "0O") s) eqn:E3.
  { cbn [fst snd]. destruct (Q _ _ (fun c => (48 <=? c) && (c <=? 55)) E3); auto; try (cbn; intuition discriminate). }
  assert (B0 : (1 <= span isdigit s <= length s)%nat).
  { pose proof (span_le isdigit s). split; auto. rewrite Es. cbn. rewrite D. lia. }
  destruct (fraction_ok s (span isdigit s)) as [F1 F2]; [lia| now apply nonl_span|].
  destruct (fraction s (span isdigit s)) as [len1 f1]. cbn [fst] in *.
  destruct (exponent_ok s len1) as [G1 G2]; auto; try lia.
  destruct (exponent s len1) as [len2 f2]. cbn [fst snd] in *.
  destruct (suffix_len_ok s len2) as [H1 H2]; auto; try lia.
  splits; auto; try lia. destruct (f1 || f2); auto.
Qed.

Lemma char_len_ok s c t : s = c :: t -> c = 39 ->
  (char_len s = UB /\ ~ safe s) \/ exists n, char_len s = Ok n /\ (1 <= n <= length s)%nat.
Proof.
  intros -> ->. unfold char_len. destruct t as [|d t].
  { left. split; auto. intros H. now destruct (safe_sing 39 H). }
  destruct (N.eqb_spec d 92) as [->|].
  - destruct t as [|e t]. { left. split; auto. intros H. apply safe_tl in H. now destruct (safe_sing 92 H). }
    right. eexists; split; [reflexivity|]. destruct t as [|x t]; cbn; [lia|]. destruct (39 =? x); cbn; lia.
  - right. eexists; split; [reflexivity|]. destruct t as [|x t]; cbn; [lia|]. destruct (39 =? x); cbn; lia.
Qed.

Lemma preproc_ok_len n : forall s, (length s <= n)%nat ->
  (preproc_len s <= length s)%nat /\
  (forall k, adv_line (firstn (preproc_len s) s) k = (k + preproc_lines s)%nat) /\
  (skipn (preproc_len s) s = [] \/ exists r, skipn (preproc_len s) s = 10 :: r).
Proof.
  induction n; intros s L; (destruct s as [|c t]; [cbn; splits; auto|]); [cbn in L; lia|].
  cbn [preproc_len preproc_lines]. destruct (N.eqb_spec c 10) as [->|Nc].
  { cbn. splits; auto; [lia|eauto]. }
  assert (Go : forall (b : bytes), (length b <= n)%nat -> t = b -> (S (preproc_len b) <= length (c :: t))%nat /\
     (forall k, adv_line (firstn (S (preproc_len b)) (c :: t)) k = (k + preproc_lines b)%nat) /\
     (skipn (S (preproc_len b)) (c :: t) = [] \/ exists r, skipn (S (preproc_len b)) (c :: t) = 10 :: r)).
  { intros b Lb ->. destruct (IHn b Lb) as (A & B & C). splits; cbn [length firstn skipn]; auto; try lia.
    intros k. cbn [adv_line]. unfold step_line. destruct (N.eqb_spec c 10); [easy|]. apply B. }
  destruct (N.eqb_spec c 92) as [->|].
  - destruct t as [|d t']. { cbn. splits; auto. }
    destruct (N.eqb_spec d 10) as [->|].
    + destruct (IHn t') as (A & B & C). { cbn in L |- *; lia. }
      splits; cbn [length firstn skipn]; auto; try lia.
      intros k. cbn [adv_line]. unfold step_line. cbn [N.eqb]. change (92 =? 10) with false. change (10 =? 10) with true.
      cbn iota. rewrite B. lia.
    + apply Go; auto. cbn in L |- *; lia.
  - apply Go; auto. cbn in L; lia.
Qed.
Lemma preproc_ok s :
  (preproc_len s <= length s)%nat /\
  (forall k, adv_line (firstn (preproc_len s) s) k = (k + preproc_lines s)%nat) /\
  (skipn (preproc_len s) s = [] \/ exists r, skipn (preproc_len s) s = 10 :: r).
Proof. apply (preproc_ok_len (length s)). lia. Qed.

