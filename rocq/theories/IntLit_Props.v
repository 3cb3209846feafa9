(** C29: integer literals. *)
From Verif Require Import Common Lexer_Model Lexer_Spec Lexer_Proofs Lexer_Next Lexer_Props IntLit_Model IntLit_Spec IntLit_Proofs.
Local Open Scope N_scope.

(** A literal of any base whose value fits 64 bits evaluates to its value, and the C
    constant emitted for it denotes the same value. *)
Theorem C29_literal_partial :
  forall lit v, denotes lit v -> v < 2 ^ 64 ->
  parse_int_literal lit = Ok v /\ c_constant (emit_int v) v.
Proof.
  intros lit v D L. split.
  - rewrite (denotes_parse _ _ D). f_equal. lia.
  - assert (L20 : v < 10 ^ N.of_nat 20) by (change (10 ^ N.of_nat 20) with 100000000000000000000; lia).
    destruct (decimal_ok 20 v L20) as (c & ds & E & Nm & Z & _); [lia|]. unfold emit_int, print_llu. rewrite E.
    destruct (N.ltb_spec 9223372036854775807 v).
    + cbn [app]. now apply C_ull.
    + apply C_plain; auto. lia.
Qed.
Print Assumptions C29_literal_partial.

(** The lexer makes one token of the whole literal. *)
Theorem C29_token :
  forall l t l', (lpos l <= length (lsrc l))%nat -> lexer_next l = Ok (t, l') ->
  forall lit v r, denotes lit v -> skipn (tpos t) (lsrc l) = lit ++ r ->
  (match r with
   | [] => True
   | c :: r' => ~ word_char c /\ (c = 46 -> exists r'', r' = 46 :: r'')
   end) ->
  tk t = TOK_INT /\ text (lsrc l) t = lit.
Proof.
  intros l t l' Lp E lit v r D Es Hr.
  assert (NL : number_len (lit ++ r) = (TOK_INT, length lit)).
  { apply (number_len_lit lit v); auto. destruct r as [|c r]; auto. destruct Hr as [H1 H2]. split; auto.
    apply not_true_iff_false. intros X. now apply is_ident_char_word in X. }
  assert (Hd : exists d w, lit = d :: w /\ Lexer_Spec.digit d).
  { destruct D as [p base ds suf v P Nm Hs]. destruct P as [|p Hp|p Hp|p Hp].
    - destruct (numeral_in _ _ _ Nm) as (N0 & A & _). destruct ds as [|d ds]; [easy|]. exists d, (ds ++ suf). split; auto.
      inversion A; subst. apply isdigit_digit. now rewrite class10.
    - exists 48. destruct Hp as [<- | [<- |[]]]; eexists; (split; [reflexivity|unfold Lexer_Spec.digit; lia]).
    - exists 48. destruct Hp as [<- | [<- |[]]]; eexists; (split; [reflexivity|unfold Lexer_Spec.digit; lia]).
    - exists 48. destruct Hp as [<- | [<- |[]]]; eexists; (split; [reflexivity|unfold Lexer_Spec.digit; lia]). }
  destruct Hd as (d & w & -> & Dd). cbn [app] in Es.
  destruct (next_lex l t l' d (w ++ r) Lp E Es) as (m & B). { intros ->. unfold Lexer_Spec.digit in Dd. lia. }
  rewrite (lex_token_cons _ d (w ++ r) eq_refl) in B. cbv zeta in B.
  destruct (N.eqb_spec d 35) as [->|]. { unfold Lexer_Spec.digit in Dd. lia. }
  assert (I1 : is_ident_start d = false).
  { apply not_true_iff_false. intros X. apply is_ident_start_letter in X. unfold letter, Lexer_Spec.digit in *. lia. }
  rewrite I1 in B. cbn [andb] in B.
  assert (Fx : forall k x, ~ Lexer_Spec.digit k -> is_prefix [k; x] (d :: w ++ r) = false).
  { intros k x Hk. cbn. destruct (N.eqb_spec k d); [congruence|reflexivity]. }
  rewrite !Fx in B by (unfold Lexer_Spec.digit; lia). cbn [orb] in B.
  rewrite (proj2 (isdigit_digit d) Dd) in B.
  change (d :: w ++ r) with ((d :: w) ++ r) in B. rewrite NL in B. injection B as B1 B2 _. split; auto.
  unfold text. rewrite Es, <- B2. change (d :: w ++ r) with ((d :: w) ++ r).
  change (S (length w)) with (length (d :: w)).
  rewrite firstn_app, Nat.sub_diag, firstn_all. apply app_nil_r.
Qed.
Print Assumptions C29_token.

(** From 2^64 on every literal silently becomes 2^64-1, without a diagnostic. *)
Theorem C29_overflow_refuted :
  forall lit v, denotes lit v -> 2 ^ 64 <= v ->
  parse_int_literal lit = Ok (2 ^ 64 - 1) /\ v <> 2 ^ 64 - 1.
Proof. intros lit v D L. split; [|lia]. rewrite (denotes_parse _ _ D). f_equal. lia. Qed.
Print Assumptions C29_overflow_refuted.

(** Text that is no literal is accepted: a prefix without digits is 0, and a second
    prefix is skipped. *)
Theorem C29_malformed_refuted :
  (forall suf, In suf suffixes -> suf <> [] -> parse_int_literal (bs "0b" ++ suf) = Ok 0) /\
  parse_int_literal (bs "0x0x10") = Ok 16 /\
  (forall v, ~ denotes (bs "0bu8") v) /\ (forall v, ~ denotes (bs "0x0x10") v).
Proof.
  splits.
  - intros suf H N0.
    assert (G : forallb (fun suf => match suf with [] => true | _ => match parse_int_literal (bs "0b" ++ suf) with Ok v => v =? 0 | _ => false end end) suffixes = true)
      by (vm_compute; reflexivity).
    rewrite forallb_forall in G. specialize (G _ H). destruct suf as [|c suf]; [easy|].
    destruct (parse_int_literal _) as [v| | |]; try discriminate. apply N.eqb_eq in G. now subst.
  - reflexivity.
  - intros v D.
    inversion D as [p base ds suf v' P Nm Hs E]; subst. destruct (numeral_in _ _ _ Nm) as (N0 & A & _).
    change (bs "0bu8") with [48; 98; 117; 56] in E.
    destruct P as [|p Hp|p Hp|p Hp].
    + destruct ds as [|d1 [|d2 ds]]; [easy| |].
      * cbn in E. injection E as -> ->.
        assert (X : existsb (beq_bytes [98; 117; 56]) suffixes = false) by (vm_compute; reflexivity).
        apply not_true_iff_false in X. apply X, existsb_exists. eexists; split; [exact Hs|apply beq_bytes_refl].
      * cbn in E. injection E as -> -> _. inversion A as [|? ? _ A2]; subst. inversion A2; subst. discriminate.
    + destruct Hp as [<- | [<- |[]]]; cbn in E; discriminate.
    + destruct Hp as [<- | [<- |[]]]; cbn in E; discriminate.
    + destruct Hp as [<- | [<- |[]]]; cbn in E; try discriminate. injection E as E.
      destruct ds as [|d ds]; [easy|]. cbn in E. injection E as -> _. inversion A; subst. discriminate.
  - intros v D.
    inversion D as [p base ds suf v' P Nm Hs E]; subst. destruct (numeral_in _ _ _ Nm) as (N0 & A & _).
    change (bs "0x0x10") with [48; 120; 48; 120; 49; 48] in E.
    assert (X : forall x, In x suffixes -> match x with c :: _ => c <> 120 | [] => True end).
    { intros x H. destruct (suffix_facts x H) as (_ & _ & Sh). destruct x; auto. destruct Sh as (_ & _ & _ & F).
      rewrite forallb_forall in F. intros ->. specialize (F 120). cbn in F. discriminate F. auto. }
    apply X in Hs.
    destruct P as [|p Hp|p Hp|p Hp].
    + destruct ds as [|d1 [|d2 ds]]; [easy| |].
      * cbn in E. injection E as -> ->. easy.
      * cbn in E. injection E as -> -> _. inversion A as [|? ? _ A2]; subst. inversion A2; subst. discriminate.
    + destruct Hp as [<- | [<- |[]]]; cbn in E; try discriminate. injection E as E.
      destruct ds as [|d1 [|d2 ds]]; [easy| |].
      * cbn in E. injection E as -> ->. easy.
      * cbn in E. injection E as -> -> _. inversion A as [|? ? _ A2]; subst. inversion A2; subst. discriminate.
    + destruct Hp as [<- | [<- |[]]]; cbn in E; discriminate.
    + destruct Hp as [<- | [<- |[]]]; cbn in E; discriminate.
Qed.
Print Assumptions C29_malformed_refuted.

Example C29_example :
  denotes (bs "0xFFu8") 255 /\ parse_int_literal (bs "0xFFu8") = Ok 255 /\ emit_int 255 = bs "255" /\
  denotes (bs "0b101") 5 /\ parse_int_literal (bs "18446744073709551615") = Ok (2 ^ 64 - 1) /\
  emit_int (2 ^ 64 - 1) = bs "18446744073709551615ULL" /\ parse_int_literal (bs "1_000") = Panic.
Proof.
  splits; try (vm_compute; reflexivity).
  - apply (Den (bs "0x") 16 [70; 70] (bs "u8") 255).
    + apply P_hex. cbn. auto.
    + apply (Num_more 16 [70] 15 70 15).
      * apply Num_one. apply (D_up 16 15); lia.
      * apply (D_up 16 15); lia.
    + cbn. auto 40.
  - apply (Den (bs "0b") 2 [49; 48; 49] [] 5).
    + apply P_bin. cbn. auto.
    + apply (Num_more 2 [49; 48] 2 49 1).
      * apply (Num_more 2 [49] 1 48 0); [apply Num_one; apply (D_dec 2 1)|apply (D_dec 2 0)]; lia.
      * apply (D_dec 2 1); lia.
    + cbn. auto.
Qed.
