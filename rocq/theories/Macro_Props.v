(** C101: plugin blocks. *)
From Verif Require Import Common Lexer_Model Lexer_Spec Lexer_Proofs Lexer_Munch Lexer_Next Lexer_Props Macro_Model Macro_Spec Macro_Proofs.
Local Open Scope nat_scope.

(** A place in a source from which a block can be read. *)
Definition readable (l : lexer) : Prop :=
  ~ In 0%N (lsrc l) /\ lpos l <= length (lsrc l) /\ lemit l = false.

(** Reading a block never leaves its array and always comes to an end, whatever the source:
    only a source that ends in a backslash or a quote can fail, in the lexer. *)
Theorem C101_safe :
  forall l line, readable l -> ends_well (lsrc l) ->
  (exists r, macro_body l line = Ok r) \/ macro_body l line = Panic.
Proof.
  intros l line (Z & Lp & Em) W. unfold macro_body. destruct new_holds as (b & -> & H). cbn [bind].
  pose proof (collect_ok (S (length (lsrc l))) l b [] 1 line Z Lp Em (le_n 1) H) as C. cbn [length] in C.
  destruct (collect _ _ _ _ _ _); eauto; [now apply C in W|lia].
Qed.
Print Assumptions C101_safe.
Theorem C101_safe_end :
  forall l, readable l -> ends_well (lsrc l) ->
  (exists r, plugin_body l = Ok r) \/ plugin_body l = Panic.
Proof.
  intros l (Z & Lp & Em) W. unfold plugin_body. destruct new_holds as (b & -> & H). cbn [bind].
  pose proof (collect_end_ok (S (length (lsrc l))) l b [] Z Lp Em H) as C. cbn [length] in C.
  destruct (collect_end _ _ _ _); eauto; [now apply C in W|lia].
Qed.

(** The block ends at the brace that matches the opening one, and reading goes on after it.
    If the tokens, each with one separator, take less than 8191 bytes, the plugin gets all
    of them in order, a token on a new line after a newline and any other after a space. *)
Theorem C101_body_partial :
  forall l line b l', readable l -> macro_body l line = Ok (b, l') ->
  exists ts, Block (lsrc l) (lpos l) 1 ts (lpos l') /\ lsrc l' = lsrc l /\
    ((N.of_nat (length (joined (lsrc l) line ts)) < 8191)%N -> bstr b = joined (lsrc l) line ts).
Proof.
  intros l line b l' (Z & Lp & Em) E. unfold macro_body in E. destruct new_holds as (b0 & E0 & H). rewrite E0 in E.
  cbn [bind] in E.
  pose proof (collect_ok (S (length (lsrc l))) l b0 [] 1 line Z Lp Em (le_n 1) H) as C. cbn [length] in C.
  rewrite E in C. destruct C as (ts & C1 & C2 & C3 & C4 & C5 & C6). exists ts. splits; auto.
  intros F. apply holds_str in C6. rewrite C6. cbn [app]. apply kept_all; auto.
  Transparent body_cap. unfold body_cap. Opaque body_cap. lia.
Qed.
Print Assumptions C101_body_partial.

(** Without comments and with at most 4095 characters in the block, the plugin gets exactly
    the characters of the block that are not blank, in order. *)
Theorem C101_text_partial :
  forall l line b l', readable l -> macro_body l line = Ok (b, l') ->
  ~ occurs (bs "//") (lsrc l) -> ~ occurs (bs "/*") (lsrc l) ->
  lpos l' - 1 - lpos l <= 4095 ->
  lpos l < lpos l' <= length (lsrc l) /\
  solid (bstr b) = solid (firstn (lpos l' - 1 - lpos l) (skipn (lpos l) (lsrc l))).
Proof.
  intros l line b l' (Z & Lp & Em) E N1 N2 F. unfold macro_body in E. destruct new_holds as (b0 & E0 & H). rewrite E0 in E.
  cbn [bind] in E.
  pose proof (collect_ok (S (length (lsrc l))) l b0 [] 1 line Z Lp Em (le_n 1) H) as C. cbn [length] in C.
  rewrite E in C. destruct C as (ts & C1 & C2 & C3 & C4 & C5 & C6). split; [lia|].
  destruct (block_facts _ _ _ _ _ C1 Lp C3 C5) as (P1 & P2 & P3).
  apply holds_str in C6. rewrite C6. cbn [app]. rewrite kept_all; auto.
  specialize (P2 line). Transparent body_cap. unfold body_cap. Opaque body_cap. lia.
Qed.
Print Assumptions C101_text_partial.

(** The block form with a name and [end]: the same, each token followed by one space. *)
Theorem C101_end_partial :
  forall l b l', readable l -> plugin_body l = Ok (b, l') ->
  exists ts, Upto (lsrc l) (lpos l) ts (lpos l') /\ lsrc l' = lsrc l /\
    ((N.of_nat (length (spaced (lsrc l) ts)) < 8191)%N -> bstr b = spaced (lsrc l) ts).
Proof.
  intros l b l' (Z & Lp & Em) E. unfold plugin_body in E. destruct new_holds as (b0 & E0 & H). rewrite E0 in E.
  cbn [bind] in E.
  pose proof (collect_end_ok (S (length (lsrc l))) l b0 [] Z Lp Em H) as C. cbn [length] in C.
  rewrite E in C. destruct C as (ts & C1 & C2 & C3 & C4). exists ts. splits; auto.
  intros F. apply holds_str in C4. rewrite C4. cbn [app]. apply kept_end_all; auto.
  Transparent body_cap. unfold body_cap. Opaque body_cap. lia.
Qed.
Print Assumptions C101_end_partial.

(** What a computed block contains *)
Definition body_of (src : bytes) : res bytes := do '(b, _) <- macro_body (lexer_init src) 1; Ok (bstr b).
Example C101_body_ex : readable (lexer_init (bs "x{1}+ 2} y")) /\ body_of (bs "x{1}+ 2} y") = Ok (bs " x { 1 } + 2").
Proof. split; [|vm_compute; reflexivity]. repeat split; cbn; try lia. Qed.
Example C101_end_ex : (do '(b, l) <- plugin_body (lexer_init (bs "1+2 end x")); Ok (bstr b, lpos l)) = Ok (bs "1 + 2 ", 7).
Proof. vm_compute. reflexivity. Qed.

(** The layout of the block is lost: blanks in the source, or none, become one space, and a
    comment disappears.  Two characters one under the other do not stay so. *)
Theorem C101_layout_refuted :
  body_of (bs ">  v" ++ [10%N] ++ bs "   <}") = Ok (bs " > v" ++ [10%N] ++ bs "<") /\
  body_of (bs "ab+1}") = body_of (bs "ab  + 1}") /\
  body_of (bs "1 // 2" ++ [10%N] ++ bs "}") = Ok (bs " 1").
Proof. splits; vm_compute; reflexivity. Qed.
Print Assumptions C101_layout_refuted.

(** A token for which there is no room is left out, without a message: a word of 8190 or
    more letters alone in a block leaves the plugin an empty text. *)
Lemma skipn_exact {A} (a b : list A) : skipn (length a) (a ++ b) = b.
Proof. rewrite skipn_app, skipn_all, Nat.sub_diag. reflexivity. Qed.
Lemma collect_other n l b k d line t l' : lexer_next l = Ok (t, l') ->
  tk t <> TOK_EOF -> tk t <> TOK_LBRACE -> tk t <> TOK_RBRACE ->
  collect (S n) l b k (S d) line = do '(b, k) <- put_token (lsrc l) t b k line; collect n l' b k (S d) (tline t).
Proof. intros E A B C. cbn [collect]. rewrite E. cbn [bind]. destruct (tk t); try contradiction; reflexivity. Qed.
Lemma collect_close n l b k line t l' : lexer_next l = Ok (t, l') -> tk t = TOK_RBRACE ->
  collect (S n) l b k 1 line = Ok (b, l').
Proof. intros E A. cbn [collect]. rewrite E. cbn [bind]. rewrite A. reflexivity. Qed.
Lemma gap_letter c s s' : (97 <= c <= 101)%N -> Gap false (c :: s) s' -> s' = c :: s.
Proof.
  intros C G. remember (c :: s) as s0 eqn:E0. destruct G as [y|x y z Bl _|body y z _ _ _ _|body y z _ _ _|body _ _].
  - auto.
  - injection E0 as -> ->. exfalso. clear - C Bl. unfold blank in Bl. cbn [In] in Bl. lia.
  - injection E0 as E0 _. exfalso. clear - C E0. vm_compute in E0. subst c. lia.
  - injection E0 as E0 _. exfalso. clear - C E0. vm_compute in E0. subst c. lia.
  - injection E0 as E0 _. exfalso. clear - C E0. vm_compute in E0. subst c. lia.
Qed.
Lemma keyword_notl w : keyword w <> Some TOK_LBRACE.
Proof.
  unfold keyword. repeat match goal with |- context[if ?c then _ else _] => destruct c end; discriminate.
Qed.
Lemma next_brace src p ln co : skipn p src = [125%N] ->
  exists l' t, lexer_next (Lex src p ln co false) = Ok (t, l') /\ tk t = TOK_RBRACE.
Proof.
  intros E. unfold lexer_next. cbn [lsrc lpos]. generalize (length src - p). intros n.
  eexists _, _. split.
  - cbn [lexer_next_f lsrc lpos lemit lline lcol]. rewrite E. change (span isspace [125%N]) with 0. cbn [skipn firstn].
    change (is_prefix (bs "//") [125%N]) with false. change (is_prefix (bs "/*") [125%N]) with false. cbv iota.
    change (lex_token [125%N]) with (Ok (TOK_RBRACE, 1, MCol)). cbn [bind]. reflexivity.
  - reflexivity.
Qed.
Theorem C101_lost_refuted :
  forall w, (8190 <= N.of_nat (length w))%N -> Forall (fun c => (97 <= c <= 101)%N) w ->
  body_of (w ++ bs "}") = Ok [].
Proof.
  intros w L F. destruct w as [|c w]; [cbn in L; lia|].
  assert (Z : ~ In 0%N ((c :: w) ++ bs "}")).
  { intros X. apply in_app_iff in X. destruct X as [X|[X|[]]]; [|discriminate]. rewrite Forall_forall in F. apply F in X. lia. }
  assert (W : ends_well ((c :: w) ++ bs "}")).
  { intros a. split; intros X; apply app_inj_tail in X; destruct X; discriminate. }
  assert (Lc : letter c) by (inversion F; subst; unfold letter; lia).
  assert (Fw : Forall word_char w).
  { inversion F; subst. eapply Forall_impl; [|eassumption]. cbn. intros a ?. left. unfold letter; lia. }
  remember ((c :: w) ++ bs "}") as src eqn:Es.
  unfold body_of, macro_body. destruct new_holds as (b0 & E0 & H). rewrite E0. cbn [bind].
  cbn [lsrc lexer_init]. assert (Ls : length src = S (S (length w))) by (rewrite Es, app_length; cbn [length]; clear; cbn; lia).
  rewrite Ls.
  destruct (lexer_next_fuel (lexer_init src)) as [[_ U]|(t & l' & E & A1 & A2 & A3 & A4 & A5 & _)];
    [cbn; lia|contradiction|].
  cbn [lsrc lpos lemit lexer_init] in *.
  destruct A5 as [(B1 & B2 & B3 & G)|(B1 & B2 & B3 & B4 & B5 & B6)].
  { exfalso. cbn [skipn] in G. rewrite Es in G. apply gap_letter in G; [discriminate|]. now inversion F. }
  assert (P0 : tpos t = 0).
  { cbn [skipn] in B3. rewrite Es in B3 at 1. apply gap_letter in B3; [|now inversion F].
    change (skipn (tpos t) src = (c :: w) ++ bs "}") in B3. rewrite <- Es in B3.
    apply (f_equal (@length N)) in B3. rewrite skipn_length, Ls in B3. clear - B3. lia. }
  assert (C9 : (97 <= c <= 101)%N) by now inversion F.
  destruct (C53_words (lexer_init src) t l' (Nat.le_0_l _) E c w (bs "}")) as [TL TK]; auto.
  { rewrite P0. exact Es. }
  { cbn. clear. unfold word_char, letter, digit. lia. }
  { intros X. injection X as X _. exfalso. clear - X C9. vm_compute in X. subst c. lia. }
  { intros X. injection X as X _. exfalso. clear - X C9. vm_compute in X. subst c. lia. }
  assert (NT : forall x, In x [TOK_LBRACE; TOK_RBRACE] -> tk t <> x).
  { unfold here in B6. rewrite P0 in B6. cbn [skipn] in B6.
    destruct (is_prefix (bs "//") src). { destruct B6 as [-> _]. intros x [<-|[<-|[]]]; discriminate. }
    destruct (is_prefix (bs "/*") src). { destruct B6 as [-> _]. intros x [<-|[<-|[]]]; discriminate. }
    intros x X Y. assert (forall k s m, lex_token (c :: s) = Ok (tk t, k, m) -> False).
    { intros k s m. unfold lex_token. assert (I1 : is_ident_start c = true) by now apply is_ident_start_letter.
      rewrite I1. clear - C9 X Y.
      replace (is_prefix [102%N; 34%N] (c :: s)) with false.
      2:{ cbn [is_prefix]. destruct (N.eqb_spec c 102); [lia|]. destruct (N.eqb_spec 102 c); [lia|]. reflexivity. }
      replace (is_prefix [114%N; 34%N] (c :: s) || is_prefix [114%N; 39%N] (c :: s)) with false.
      2:{ cbn [is_prefix]. destruct (N.eqb_spec c 114); [lia|]. destruct (N.eqb_spec 114 c); [lia|]. reflexivity. }
      destruct (N.eqb_spec c 35); [lia|]. cbn [andb orb negb].
      destruct (keyword (firstn (span is_ident_char (c :: s)) (c :: s))) as [k0|] eqn:Kw; intros K; injection K as K _.
      - subst k0. destruct X as [<-|[<-|[]]]; rewrite Y in Kw; [now apply keyword_notl in Kw|now apply keyword_not in Kw].
      - destruct X as [<-|[<-|[]]]; congruence. }
    destruct B6 as [m B6]. rewrite Es in B6. eapply H0. exact B6. }
  pose proof (NT _ (or_introl eq_refl)) as NT1. pose proof (NT _ (or_intror (or_introl eq_refl))) as NT2. clear NT.
  assert (E2 : exists l'' t2, lexer_next l' = Ok (t2, l'') /\ tk t2 = TOK_RBRACE).
  { destruct l' as [s1 p1 ln1 co1 em1]. cbn [lsrc lpos lemit] in *. subst s1 em1.
    rewrite P0, TL in A3. cbn [Nat.add] in A3. subst p1.
    apply next_brace. rewrite Es. apply skipn_exact. }
  destruct E2 as (l'' & t2 & E2 & T2).
  assert (Ft : (0 + tlen t + 2 <? body_cap) = false).
  { rewrite TL. Transparent body_cap. unfold body_cap. Opaque body_cap. apply Nat.ltb_ge. clear - L. lia. }
  rewrite (collect_other _ _ _ _ _ _ t l') by auto. cbn [lsrc lexer_init].
  unfold put_token. rewrite Ft. cbn [bind]. rewrite (collect_close _ _ _ _ _ t2 l'') by auto.
  cbn [bind]. now rewrite (holds_str b0 [] H).
Qed.
Print Assumptions C101_lost_refuted.
Example C101_lost_ex : (8190 <= N.of_nat (length (repeat 97%N (N.to_nat 9000))))%N /\
  Forall (fun c => (97 <= c <= 101)%N) (repeat 97%N (N.to_nat 9000)).
Proof. split; [rewrite repeat_length; lia|]. apply Forall_forall. intros x X. apply repeat_spec in X. lia. Qed.

(** Imports.  [imports] are the [import plugin] lines in order. *)
Section Imports.
  Variable load : bytes -> option plugin.
  Variables (ext run_prefix : bytes).
  Fixpoint run_imports (s : pstate) (is : list (bytes * option bytes)) : res pstate :=
    match is with
    | [] => Ok s
    | (n, a) :: is => do s <- register_plugin load ext run_prefix s n a; run_imports s is
    end.

  (** What an import leaves: it puts one name in front, and one plugin if it was loaded. *)
  Lemma register_inv s n a s' : register_plugin load ext run_prefix s n a = Ok s' ->
    exists p, imported s' = (p_name p, a) :: imported s /\
      ((loaded s' = loaded s /\ find_plugin (loaded s) n = Some p) \/
       (loaded s' = p :: loaded s /\ exists path, load path = Some p)).
  Proof.
    unfold register_plugin, load_plugin. intros E.
    destruct (find_plugin (loaded s) n) as [p|] eqn:F.
    { injection E as <-. exists p. auto. }
    destruct (load n) as [p|] eqn:L1. { injection E as <-. exists p. cbn. split; auto. right. eauto. }
    destruct (load (firstn 1023 (n ++ ext))) as [p|] eqn:L2. { injection E as <-. exists p. cbn. split; auto. right. eauto. }
    destruct (existsb (N.eqb 47) n); [discriminate|].
    destruct (load (firstn 1023 (run_prefix ++ n ++ ext))) as [p|] eqn:L3; [|discriminate].
    injection E as <-. exists p. cbn. split; auto. right. eauto.
  Qed.

  (** A block called by the alias of an import runs the plugin that import loaded, as long
      as no later import gives that alias, no later plugin calls itself by that alias or by
      this plugin's own name. *)
  Theorem C101_import_partial :
    forall s n a p is s1 s2, load n = Some p -> find_plugin (loaded s) n = None ->
    register_plugin load ext run_prefix s n (Some a) = Ok s1 -> run_imports s1 is = Ok s2 ->
    Forall (fun i => snd i <> Some a) is ->
    (forall path q, load path = Some q -> p_name q <> a \/ q = p) ->
    (forall path q, load path = Some q -> p_name q = p_name p -> q = p) ->
    (forall q, In q (loaded s) -> p_name q <> a) ->
    forall l line b l', macro_body l line = Ok (b, l') ->
    macro_call s2 a l line = do out <- p_fn p (bstr b); Ok (out, l').
  Proof.
    intros s n a p is s1 s2 Ld Fd R1 Rs Fa Ha Hn Hl l line b l' M.
    unfold macro_call. rewrite M. cbn [bind].
    assert (K : resolve_plugin (imported s2) a = Some (p_name p) /\ find_plugin (loaded s2) (p_name p) = Some p /\
                (forall q, In q (loaded s2) -> p_name q <> a \/ q = p)).
    { assert (I1 : resolve_plugin (imported s1) a = Some (p_name p) /\ find_plugin (loaded s1) (p_name p) = Some p /\
                   (forall q, In q (loaded s1) -> p_name q <> a \/ q = p)).
      { unfold register_plugin in R1. rewrite Fd in R1. unfold load_plugin in R1. rewrite Ld in R1. injection R1 as <-.
        cbn [imported loaded resolve_plugin]. rewrite beq_bytes_refl. splits; auto.
        - unfold find_plugin. cbn [find]. now rewrite beq_bytes_refl.
        - intros q [<-|Q]; auto. }
      clear R1 Fd. revert s1 Rs I1. induction Fa as [|[m b0] is Fb Fa IH]; intros s1 Rs I1; cbn [run_imports] in Rs.
      { injection Rs as <-. exact I1. }
      apply bind_Ok in Rs. destruct Rs as (s' & R & Rs). apply (IH s' Rs).
      destruct I1 as (I1 & I2 & I3). cbn [snd] in Fb.
      destruct (register_inv _ _ _ _ R) as (q & Im & Lo). rewrite Im. cbn [resolve_plugin].
      assert (Q : p_name q <> a \/ q = p).
      { destruct Lo as [[_ Q]|[_ [path Q]]].
        - apply I3. unfold find_plugin in Q. apply find_some in Q. tauto.
        - eapply Ha; eauto. }
      assert (A0 : match b0 with Some b1 => beq_bytes b1 a | None => false end = false).
      { destruct b0 as [b1|]; auto. destruct (beq_bytes b1 a) eqn:E; auto. apply beq_bytes_true in E. congruence. }
      rewrite A0.
      assert (Lo' : (loaded s' = loaded s1) \/ (loaded s' = q :: loaded s1 /\ exists path, load path = Some q)) by tauto.
      splits.
      - destruct (beq_bytes (p_name q) a) eqn:E; auto. apply beq_bytes_true in E. destruct Q as [Q|Q]; congruence.
      - destruct Lo' as [->|[-> [path Q']]]; auto. unfold find_plugin in *. cbn [find].
        destruct (beq_bytes (p_name q) (p_name p)) eqn:E; auto. apply beq_bytes_true in E. f_equal. eapply Hn; eauto.
      - destruct Lo' as [->|[-> _]]; auto. intros r [<-|X]; auto. }
    destruct K as (-> & -> & _). reflexivity.
  Qed.
End Imports.
Print Assumptions C101_import_partial.
Definition echo : plugin := Plugin (bs "echo") (fun t => Ok (bs "E" ++ t)).
Definition shout : plugin := Plugin (bs "shout") (fun t => Ok (bs "S" ++ t)).
Definition two_files (path : bytes) : option plugin :=
  if beq_bytes path (bs "./e.so") then Some echo else if beq_bytes path (bs "./s.so") then Some shout else None.
Example C101_import_ex :
  (do s1 <- register_plugin two_files (bs ".so") (bs "./") (PS [] []) (bs "./e.so") (Some (bs "e"));
   do s2 <- run_imports two_files (bs ".so") (bs "./") s1 [(bs "s", Some (bs "sh"))];
   do '(o, _) <- macro_call s2 (bs "e") (lexer_init (bs "1+2}")) 1; Ok o) = Ok (bs "E 1 + 2") /\
  (forall path q, two_files path = Some q -> p_name q <> bs "e" \/ q = echo) /\
  (forall path q, two_files path = Some q -> p_name q = p_name echo -> q = echo).
Proof.
  splits; [vm_compute; reflexivity| |]; unfold two_files; intros path q;
  destruct (beq_bytes path (bs "./e.so")); [intros E; injection E as <-; auto| |intros E; injection E as <-; auto|];
  destruct (beq_bytes path (bs "./s.so")); intros E; try discriminate; injection E as <-.
  - left; discriminate.
  - discriminate.
Qed.

(** Two libraries whose plugins give themselves the same name: blocks called by the alias of
    the first run the second one.  And a plugin that calls itself by the alias of an earlier
    import takes it over. *)
Theorem C101_alias_refuted :
  (forall load p q l line b l' n m,
    load (bs "./one.so") = Some p -> load (bs "./two.so") = Some q -> p_name p = n -> p_name q = n ->
    n <> bs "./one.so" -> n <> bs "./two.so" -> m <> bs "b" -> m <> n ->
    macro_body l line = Ok (b, l') ->
    exists s, run_imports load (bs ".so") (bs "./") (PS [] []) [(bs "./one.so", Some m); (bs "./two.so", Some (bs "b"))] = Ok s /\
      macro_call s m l line = do out <- p_fn q (bstr b); Ok (out, l')) /\
  (forall load p q l line b l',
    load (bs "./one.so") = Some p -> load (bs "./two.so") = Some q -> p_name p = bs "one" -> p_name q = bs "math" ->
    macro_body l line = Ok (b, l') ->
    exists s, run_imports load (bs ".so") (bs "./") (PS [] []) [(bs "./one.so", Some (bs "math")); (bs "./two.so", None)] = Ok s /\
      macro_call s (bs "math") l line = do out <- p_fn q (bstr b); Ok (out, l')).
Proof.
  split.
  - intros load p q l line b l' n m L1 L2 Np Nq N1 N2 M1 M2 B.
    cbn [run_imports]. unfold register_plugin at 1. cbn [loaded find_plugin find]. unfold load_plugin at 1. rewrite L1. cbn [bind].
    unfold register_plugin. cbn [loaded]. unfold find_plugin at 1. cbn [find]. rewrite Np.
    replace (beq_bytes n (bs "./two.so")) with false.
    2:{ destruct (beq_bytes n (bs "./two.so")) eqn:E; auto. apply beq_bytes_true in E. congruence. }
    unfold load_plugin. rewrite L2. cbn [bind]. eexists. split; [reflexivity|].
    unfold macro_call. rewrite B. cbn [bind imported resolve_plugin loaded].
    replace (beq_bytes (bs "b") m) with false.
    2:{ destruct (beq_bytes (bs "b") m) eqn:E; auto. apply beq_bytes_true in E. congruence. }
    replace (beq_bytes (p_name q) m) with false.
    2:{ destruct (beq_bytes (p_name q) m) eqn:E; auto. apply beq_bytes_true in E. congruence. }
    rewrite beq_bytes_refl. unfold find_plugin. cbn [find]. rewrite Nq, beq_bytes_refl. reflexivity.
  - intros load p q l line b l' L1 L2 Np Nq B.
    cbn [run_imports]. unfold register_plugin at 1. cbn [loaded find_plugin find]. unfold load_plugin at 1. rewrite L1. cbn [bind].
    unfold register_plugin. cbn [loaded]. unfold find_plugin at 1. cbn [find]. rewrite Np.
    replace (beq_bytes (bs "one") (bs "./two.so")) with false by reflexivity.
    unfold load_plugin. rewrite L2. cbn [bind]. eexists. split; [reflexivity|].
    unfold macro_call. rewrite B. cbn [bind imported resolve_plugin loaded]. rewrite Nq, beq_bytes_refl.
    unfold find_plugin. cbn [find]. rewrite Nq, beq_bytes_refl. reflexivity.
Qed.
Print Assumptions C101_alias_refuted.

(** A block with a name nothing was imported under is an error; in the form with [end] it is
    dropped, with a comment in the C text. *)
Theorem C101_unknown :
  forall s name l line, (forall n a, In (n, a) (imported s) -> n <> name /\ a <> Some name) ->
  macro_body l line <> UB -> macro_body l line <> Fuel -> macro_call s name l line = Panic.
Proof.
  intros s name l line H U F. unfold macro_call. destruct (macro_body l line) as [[b l']| | |]; try easy. cbn [bind].
  replace (resolve_plugin (imported s) name) with (@None bytes); auto. symmetry.
  induction (imported s) as [|[n a] r IH]; auto. cbn [resolve_plugin].
  destruct (H n a (or_introl eq_refl)) as [H1 H2].
  replace (match a with Some a0 => beq_bytes a0 name | None => false end) with false.
  2:{ destruct a as [a|]; auto. destruct (beq_bytes a name) eqn:E; auto. apply beq_bytes_true in E. congruence. }
  destruct (beq_bytes n name) eqn:E; [apply beq_bytes_true in E; congruence|]. apply IH. intros; apply H; right; auto.
Qed.
Theorem C101_unknown_refuted :
  forall s name l b l', (forall p, In p (loaded s) -> p_name p <> name) -> plugin_body l = Ok (b, l') ->
  plugin_block s name l = Ok (bs "/* Unknown plugin: " ++ name ++ bs " */" ++ [10%N], l').
Proof.
  intros s name l b l' H B. unfold plugin_block. rewrite B. cbn [bind].
  replace (find_plugin (loaded s) name) with (@None plugin); auto. symmetry.
  unfold find_plugin. induction (loaded s) as [|p r IH]; auto. cbn [find].
  destruct (beq_bytes (p_name p) name) eqn:E; [apply beq_bytes_true in E; now apply H in E; [|left]|].
  apply IH. intros; apply H; right; auto.
Qed.
Print Assumptions C101_unknown.
Print Assumptions C101_unknown_refuted.
Example C101_unknown_ex : exists b l', plugin_body (lexer_init (bs "x end")) = Ok (b, l') /\
  plugin_block (PS [] []) (bs "sql") (lexer_init (bs "x end")) = Ok (bs "/* Unknown plugin: sql */" ++ [10%N], l').
Proof.
  destruct (plugin_body (lexer_init (bs "x end"))) as [[b l']| | |] eqn:E; [|vm_compute in E; discriminate ..].
  exists b, l'. split; auto. now apply (C101_unknown_refuted (PS [] []) (bs "sql") _ b l').
Qed.
