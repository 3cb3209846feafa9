(** Proofs about integer literals. *)
From Verif Require Import Common Lexer_Model Lexer_Proofs IntLit_Model IntLit_Spec.
Local Open Scope N_scope.

Lemma digit_in base c v : digit base c v -> digit_value c = v /\ in_base base c = true /\ isxdigit c = true.
Proof.
  intros D. assert (E : digit_value c = v /\ v < base /\ isxdigit c = true).
  { unfold digit_value, isxdigit, isdigit. destruct D as [v L B|v L B T|v L B T].
    - replace (48 <=? 48 + v) with true by (symmetry; apply N.leb_le; lia).
      replace (48 + v <=? 57) with true by (symmetry; apply N.leb_le; lia). cbn. splits; auto; lia.
    - replace (87 + v <=? 57) with false by (symmetry; apply N.leb_gt; lia).
      replace (97 <=? 87 + v) with true by (symmetry; apply N.leb_le; lia).
      replace (87 + v <=? 122) with true by (symmetry; apply N.leb_le; lia).
      replace (87 + v <=? 102) with true by (symmetry; apply N.leb_le; lia).
      rewrite andb_false_r, orb_true_r. cbn. splits; auto; lia.
    - replace (55 + v <=? 57) with false by (symmetry; apply N.leb_gt; lia).
      replace (97 <=? 55 + v) with false by (symmetry; apply N.leb_gt; lia).
      replace (65 <=? 55 + v) with true by (symmetry; apply N.leb_le; lia).
      replace (55 + v <=? 90) with true by (symmetry; apply N.leb_le; lia).
      replace (55 + v <=? 70) with true by (symmetry; apply N.leb_le; lia).
      rewrite andb_false_r. cbn. splits; auto; lia. }
  destruct E as (E & L & X). splits; auto. unfold in_base. rewrite E. now apply N.ltb_lt.
Qed.

Definition all_in (base : N) (ds : bytes) : Prop := Forall (fun c => in_base base c = true) ds.

Lemma numeral_in base ds v : numeral base ds v -> ds <> [] /\ all_in base ds /\ Forall (fun c => isxdigit c = true) ds.
Proof.
  induction 1 as [c v D|ds v c w _ (N0 & A & X) D]; destruct (digit_in _ _ _ D) as (_ & I & J).
  - splits; [discriminate|repeat constructor; auto..].
  - splits. { now destruct ds. } all: apply Forall_app; split; auto.
Qed.

Lemma accumulate_app base ds r : all_in base ds -> forall acc,
  accumulate base acc (ds ++ r) =
  accumulate base (fold_left (fun a c => base * a + digit_value c) ds acc) r.
Proof. intros F. induction F as [|c ds H F IH]; intros acc; cbn; auto. rewrite H. apply IH. Qed.

Lemma numeral_fold base ds v : numeral base ds v ->
  fold_left (fun a c => base * a + digit_value c) ds 0 = v.
Proof.
  induction 1 as [c v D|ds v c w _ IH D]; destruct (digit_in _ _ _ D) as (E & _).
  - cbn. lia.
  - rewrite fold_left_app, IH. cbn. lia.
Qed.

(** What follows the digits stops them. *)
Definition stops (base : N) (r : bytes) : Prop := match r with c :: _ => in_base base c = false | [] => True end.

Lemma accumulate_stop base r acc : stops base r -> accumulate base acc r = acc.
Proof. destruct r; cbn; auto. now intros ->. Qed.

Lemma strtoull_digits base ds v r : numeral base ds v -> stops base r ->
  match r with c :: _ => c <> 120 /\ c <> 88 | [] => True end ->
  strtoull (ds ++ r) base = (N.min v (2 ^ 64 - 1), r).
Proof.
  intros Nm S Nx. destruct (numeral_in _ _ _ Nm) as (N0 & A & X). unfold strtoull.
  assert (E : skip_0x (ds ++ r) base = ds ++ r).
  { unfold skip_0x. destruct ds as [|z ds]; [easy|]. cbn [app].
    assert (G : match ds ++ r with x :: _ => x <> 120 /\ x <> 88 | [] => True end).
    { destruct ds as [|x ds]; cbn; auto. inversion X as [|? ? _ X2]; subst. inversion X2 as [|? ? X3 _]; subst.
      split; intros ->; discriminate. }
    destruct (ds ++ r) as [|x [|d l]]; auto. destruct G as [G1 G2].
    destruct (N.eqb_spec x 120); [easy|]. destruct (N.eqb_spec x 88); [easy|].
    cbn [orb]. rewrite andb_false_r. reflexivity. }
  rewrite E. cbv zeta.
  rewrite (span_max (in_base base) ds r); [|exact A|exact S].
  destruct (Nat.eqb_spec (length ds) 0) as [Z|_]. { now destruct ds. }
  rewrite skipn_app, skipn_all, Nat.sub_diag. cbn [app skipn].
  rewrite accumulate_app by auto. rewrite accumulate_stop by auto. now rewrite (numeral_fold _ _ _ Nm).
Qed.

Lemma suffix_facts suf : In suf suffixes -> is_valid_int_suffix suf = true /\
  Forall (fun c => is_ident_char c = true) suf /\
  match suf with
  | c :: _ => is_ident_start c = true /\ in_base 16 c = false /\ isdigit c = false /\
              forallb (fun x => negb (c =? x)) [46; 101; 69; 120; 88; 98; 66; 111; 79] = true
  | [] => True end.
Proof.
  intros H. assert (G : forallb (fun suf => is_valid_int_suffix suf && forallb is_ident_char suf &&
    match suf with
    | c :: _ => is_ident_start c && negb (in_base 16 c) && negb (isdigit c) && forallb (fun x => negb (c =? x)) [46; 101; 69; 120; 88; 98; 66; 111; 79]
    | [] => true end) suffixes = true) by (vm_compute; reflexivity).
  rewrite forallb_forall in G. specialize (G _ H). rewrite !andb_true_iff in G. destruct G as [[G1 G2] G3]. splits; auto.
  - apply Forall_forall. now apply forallb_forall.
  - destruct suf; auto. rewrite !andb_true_iff, !negb_true_iff in G3. destruct G3 as [[[? ?] ?] ?]. splits; auto.
Qed.

Lemma in_more c : In c [120; 88; 98; 66; 111; 79] -> In c [46; 101; 69; 120; 88; 98; 66; 111; 79].
Proof. cbn. tauto. Qed.

Lemma stops_mono base r : base <= 16 -> stops 16 r -> stops base r.
Proof. destruct r as [|c r]; cbn; auto. unfold in_base. rewrite !N.ltb_ge. lia. Qed.

Lemma denotes_parse lit v : denotes lit v -> parse_int_literal lit = Ok (N.min v (2 ^ 64 - 1)).
Proof.
  intros D. destruct D as [p base ds suf v P Nm Hs].
  destruct (suffix_facts suf Hs) as (Sv & _ & Sh).
  destruct (numeral_in _ _ _ Nm) as (N0 & A & X).
  assert (Fin : forall b, b <= 16 -> numeral b ds v -> strtoull (ds ++ suf) b = (N.min v (2 ^ 64 - 1), suf)).
  { intros b Lb Nm'. apply strtoull_digits; auto.
    - apply stops_mono; auto. destruct suf; cbn; auto. apply Sh.
    - destruct suf as [|c suf]; auto. destruct Sh as (_ & _ & _ & F). rewrite forallb_forall in F.
      split; intros ->; [specialize (F 120)|specialize (F 88)]; cbn in F; discriminate F; auto 20. }
  unfold parse_int_literal. destruct P as [|p Hp|p Hp|p Hp].
  - cbn [app].
    assert (G : forall x y, In x [120; 88; 98; 66; 111; 79] -> In y [120; 88; 98; 66; 111; 79] ->
      match ds ++ suf with z :: c :: _ :: _ => (z =? 48) && ((c =? x) || (c =? y)) | _ => false end = false).
    { intros x y Hx Hy. destruct ds as [|z ds]; [easy|]. cbn [app].
      assert (G : match ds ++ suf with c :: _ => ~ In c [120; 88; 98; 66; 111; 79] | [] => True end).
      { destruct ds as [|c ds]; cbn [app].
        - destruct suf as [|c suf]; auto. destruct Sh as (_ & _ & _ & F). rewrite forallb_forall in F.
          intros I. assert (J : In c [46; 101; 69; 120; 88; 98; 66; 111; 79]) by (now apply in_more).
          apply F in J. rewrite N.eqb_refl in J. discriminate.
        - inversion A as [|? ? _ A2]; subst. inversion A2 as [|? ? A3 _]; subst. intros I.
          assert (Y : forallb (fun c => negb (in_base 10 c)) [120; 88; 98; 66; 111; 79] = true) by reflexivity.
          rewrite forallb_forall in Y. apply Y in I. rewrite A3 in I. discriminate. }
      destruct (ds ++ suf) as [|c [|e l]]; auto.
      destruct (N.eqb_spec c x); [subst; easy|]. destruct (N.eqb_spec c y); [subst; easy|]. apply andb_false_r. }
    rewrite !G by (cbn; auto 10). rewrite (Fin 10) by (auto; lia). now rewrite Sv.
  - destruct ds as [|d ds]; [easy|].
    destruct Hp as [<- | [<- |[]]];
      change ((let '(val, rest) := strtoull ((d :: ds) ++ suf) 16 in if is_valid_int_suffix rest then Ok val else Panic) = Ok (N.min v (2 ^ 64 - 1)));
      rewrite (Fin 16) by (auto; lia); now rewrite Sv.
  - destruct ds as [|d ds]; [easy|].
    destruct Hp as [<- | [<- |[]]];
      change ((let '(val, rest) := strtoull ((d :: ds) ++ suf) 8 in if is_valid_int_suffix rest then Ok val else Panic) = Ok (N.min v (2 ^ 64 - 1)));
      rewrite (Fin 8) by (auto; lia); now rewrite Sv.
  - destruct ds as [|d ds]; [easy|].
    destruct Hp as [<- | [<- |[]]];
      change ((let '(val, rest) := strtoull ((d :: ds) ++ suf) 2 in if is_valid_int_suffix rest then Ok val else Panic) = Ok (N.min v (2 ^ 64 - 1)));
      rewrite (Fin 2) by (auto; lia); now rewrite Sv.
Qed.

(** printing *)
Lemma decimal_ok fuel : forall n, n < 10 ^ N.of_nat fuel -> (0 < fuel)%nat ->
  exists c ds, decimal fuel n = c :: ds /\ numeral 10 (c :: ds) n /\ (ds <> [] -> c <> 48) /\ (0 < n -> c <> 48).
Proof.
  induction fuel as [|f IH]; intros n L H; [lia|]. cbn [decimal].
  assert (Dg : digit 10 (48 + n mod 10) (n mod 10)) by (apply D_dec; lia).
  destruct (N.ltb_spec n 10) as [S|S].
  - exists (48 + n mod 10), []. splits; auto.
    + assert (E : n mod 10 = n) by (apply N.mod_small; auto). rewrite E in *. now apply Num_one.
    + rewrite N.mod_small by auto. lia.
  - destruct f as [|f]; [cbn in L; lia|].
    destruct (IH (n / 10)) as (c & ds & E & Nm & Z & Z'); [|lia|].
    { rewrite Nat2N.inj_succ, N.pow_succ_r' in L. apply N.div_lt_upper_bound; lia. }
    rewrite E. exists c, (ds ++ [48 + n mod 10]). splits; auto.
    + replace n with (n / 10 * 10 + n mod 10) at 2 by lia. change (c :: ds ++ ?x) with ((c :: ds) ++ x).
      now apply Num_more.
    + intros _. apply Z'. lia.
    + intros _. apply Z'. lia.
Qed.

(** the token *)
Lemma suffix_len_ok s len suf r : skipn len s = suf ++ r -> In suf suffixes ->
  match r with c :: _ => is_ident_char c = false | [] => True end ->
  suffix_len s len = (len + length suf)%nat.
Proof.
  intros E Hs Hr. destruct (suffix_facts suf Hs) as (_ & F & Sh). unfold suffix_len. rewrite E.
  destruct suf as [|c suf]; cbn [app length].
  - destruct r as [|c r]; [lia|]. unfold is_ident_char, isalnum in Hr. unfold is_ident_start.
    destruct (isalpha c); [discriminate|]. destruct (c =? 95); [|cbn; lia]. now rewrite orb_true_r in Hr.
  - destruct Sh as [-> _]. f_equal. exact (span_max is_ident_char (c :: suf) r F Hr).
Qed.

Lemma skipn_pre {A} (a b : list A) n : n = length a -> skipn n (a ++ b) = b.
Proof. intros ->. now rewrite skipn_app, skipn_all, Nat.sub_diag. Qed.

Lemma class16 c : isxdigit c = in_base 16 c.
Proof.
  unfold isxdigit, in_base, digit_value, isdigit.
  destruct (N.leb_spec 48 c), (N.leb_spec c 57), (N.leb_spec 65 c), (N.leb_spec c 70), (N.leb_spec 97 c), (N.leb_spec c 102),
    (N.leb_spec c 122), (N.leb_spec c 90); cbn; try lia;
    symmetry; (apply N.ltb_lt || apply N.ltb_ge); lia.
Qed.
Lemma class10 c : isdigit c = in_base 10 c.
Proof.
  unfold in_base, digit_value, isdigit.
  destruct (N.leb_spec 48 c), (N.leb_spec c 57), (N.leb_spec 65 c), (N.leb_spec 97 c),
    (N.leb_spec c 122), (N.leb_spec c 90); cbn; try lia;
    symmetry; (apply N.ltb_lt || apply N.ltb_ge); lia.
Qed.
Lemma class8 c : (48 <=? c)%N && (c <=? 55)%N = in_base 8 c.
Proof.
  unfold in_base, digit_value, isdigit.
  destruct (N.leb_spec 48 c), (N.leb_spec c 57), (N.leb_spec c 55), (N.leb_spec 65 c), (N.leb_spec 97 c),
    (N.leb_spec c 122), (N.leb_spec c 90); cbn; try lia;
    symmetry; (apply N.ltb_lt || apply N.ltb_ge); lia.
Qed.
Lemma class2 c : (c =? 48)%N || (c =? 49)%N = in_base 2 c.
Proof.
  unfold in_base, digit_value, isdigit.
  destruct (N.eqb_spec c 48), (N.eqb_spec c 49), (N.leb_spec 48 c), (N.leb_spec c 57), (N.leb_spec 65 c), (N.leb_spec 97 c),
    (N.leb_spec c 122), (N.leb_spec c 90); cbn; try lia;
    symmetry; (apply N.ltb_lt || apply N.ltb_ge); lia.
Qed.

Lemma span_ext p q s : (forall c, p c = q c) -> span p s = span q s.
Proof. intros H. induction s as [|c s IH]; cbn; auto. now rewrite H, IH. Qed.

Lemma number_len_lit lit v r : denotes lit v ->
  match r with
  | [] => True
  | c :: r' => is_ident_char c = false /\ (c = 46 -> exists r'', r' = 46 :: r'')
  end -> number_len (lit ++ r) = (TOK_INT, length lit).
Proof.
  intros D Hr. destruct D as [p base ds suf v P Nm Hs].
  destruct (suffix_facts suf Hs) as (_ & Si & Sh).
  destruct (numeral_in _ _ _ Nm) as (N0 & A & X).
  assert (Hi : match r with c :: _ => is_ident_char c = false | [] => True end) by (destruct r; tauto).
  assert (St : stops 16 (suf ++ r)).
  { destruct suf as [|c suf]; cbn; [|apply Sh]. destruct r as [|c r]; cbn; auto. destruct Hr as [Hr _].
    rewrite <- class16. apply not_true_iff_false. intros Y. unfold is_ident_char, isalnum, isalpha in Hr.
    unfold isxdigit in Y. rewrite !orb_true_iff, !andb_true_iff, !N.leb_le in Y.
    rewrite !orb_false_iff in Hr. destruct Hr as [[[H1 H2] H3] _].
    rewrite andb_false_iff, !N.leb_gt in H1, H2. destruct Y as [[Y|Y]|Y]; [congruence|lia..]. }
  assert (Sp : forall b, b <= 16 -> all_in b ds -> span (in_base b) (ds ++ suf ++ r) = length ds).
  { intros b Lb Ab. apply span_max; auto. apply (stops_mono b) in St; auto. }
  unfold number_len. rewrite <- !app_assoc.
  assert (Px : forall q, length q = 2%nat -> In q [bs "0x"; bs "0X"; bs "0b"; bs "0B"; bs "0o"; bs "0O"] ->
     forall s, is_prefix q (q ++ s) = true).
  { intros q _ _ s. apply is_prefix_spec. now exists s. }
  destruct P as [|p Hp|p Hp|p Hp].
  - cbn [app].
    assert (Pz : forall a, In a [bs "0x"; bs "0X"; bs "0b"; bs "0B"; bs "0o"; bs "0O"] ->
      is_prefix a (ds ++ suf ++ r) = false).
    { intros a Ha. apply not_true_iff_false. intros Y. apply is_prefix_spec in Y. destruct Y as [s Y].
      destruct ds as [|d ds]; [easy|].
      assert (Hx : match ds ++ suf ++ r with c :: _ => ~ In c [120; 88; 98; 66; 111; 79] | [] => True end).
      { destruct ds as [|c ds]; cbn [app].
        - destruct suf as [|c suf]; cbn [app].
          + destruct r as [|c r]; auto. intros I. destruct Hr as [Hr _].
            assert (Z : forallb is_ident_char [120; 88; 98; 66; 111; 79] = true) by reflexivity.
            rewrite forallb_forall in Z. apply Z in I. congruence.
          + destruct Sh as (_ & _ & _ & F). rewrite forallb_forall in F.
            intros I. assert (J : In c [46; 101; 69; 120; 88; 98; 66; 111; 79]) by (now apply in_more).
            apply F in J. rewrite N.eqb_refl in J. discriminate.
        - inversion A as [|? ? _ A2]; subst. inversion A2 as [|? ? A3 _]; subst. intros I.
          assert (Z : forallb (fun c => negb (in_base 10 c)) [120; 88; 98; 66; 111; 79] = true) by reflexivity.
          rewrite forallb_forall in Z. apply Z in I. rewrite A3 in I. discriminate. }
      cbn [app] in Y.
      assert (Q : exists x, a = [48; x] /\ In x [120; 88; 98; 66; 111; 79]).
      { cbn in Ha. destruct Ha as [<- |[<- |[<- |[<- |[<- |[<- |[]]]]]]]; eexists; (split; [reflexivity|cbn; tauto]). }
      destruct Q as (x & -> & Qx). cbn in Y. injection Y as _ Y. rewrite Y in Hx. easy. }
    rewrite !Pz by (cbn; tauto). cbn [orb].
    rewrite (span_ext _ _ _ class10), Sp by (auto; lia).
    unfold fraction. rewrite (skipn_pre ds) by auto.
    assert (Fr : is_prefix (bs ".") (suf ++ r) && negb (is_prefix (bs "..") (suf ++ r)) = false).
    { destruct suf as [|c suf]; cbn [app].
      - destruct r as [|c r]; auto. change (bs ".") with [46]. change (bs "..") with [46; 46]. cbn.
        destruct (N.eqb_spec 46 c) as [<-|]; auto. destruct Hr as [_ Hr]. destruct (Hr eq_refl) as [r'' ->].
        reflexivity.
      - destruct Sh as (_ & _ & _ & F). rewrite forallb_forall in F. change (bs ".") with [46]. cbn.
        destruct (N.eqb_spec 46 c) as [<-|]; auto. specialize (F 46). cbn in F. discriminate F. auto. }
    rewrite Fr.
    assert (Ex : match suf ++ r with c :: _ => (c =? 101) || (c =? 69) = false | [] => True end).
    { destruct suf as [|c suf]; cbn [app].
      - destruct r as [|c r]; auto. destruct (N.eqb_spec c 101) as [->|]; [now destruct Hr|].
        destruct (N.eqb_spec c 69) as [->|]; [now destruct Hr|]. reflexivity.
      - destruct Sh as (_ & _ & _ & F). rewrite forallb_forall in F.
        destruct (N.eqb_spec c 101) as [->|]; [specialize (F 101); cbn in F; discriminate F; auto|].
        destruct (N.eqb_spec c 69) as [->|]; [specialize (F 69); cbn in F; discriminate F; auto 20|]. reflexivity. }
    assert (E2 : exponent (ds ++ suf ++ r) (length ds) = (length ds, false)).
    { unfold exponent. rewrite (skipn_pre ds) by auto. destruct (suf ++ r); auto. now rewrite Ex. }
    rewrite E2. cbn [orb]. f_equal. rewrite (suffix_len_ok _ _ suf r); auto.
    + now rewrite app_length.
    + now apply skipn_pre.
  - assert (G : is_prefix (bs "0x") (p ++ ds ++ suf ++ r) || is_prefix (bs "0X") (p ++ ds ++ suf ++ r) = true).
    { destruct Hp as [<- | [<- |[]]]; rewrite orb_true_iff; [left|right]; reflexivity. }
    rewrite G. assert (L2 : length p = 2%nat) by (destruct Hp as [<- | [<- |[]]]; reflexivity).
    rewrite (skipn_pre p) by auto. rewrite (span_ext _ _ _ class16), Sp by (auto; lia). f_equal.
    rewrite (suffix_len_ok _ _ suf r); auto.
    + rewrite !app_length. lia.
    + rewrite app_assoc. apply skipn_pre. rewrite app_length. lia.
  - assert (G0 : forall a, In a [bs "0x"; bs "0X"; bs "0b"; bs "0B"] -> is_prefix a (p ++ ds ++ suf ++ r) = false).
    { destruct Hp as [<- | [<- |[]]]; cbn [In]; intros a [<- |[<- |[<- |[<- |[]]]]]; reflexivity. }
    rewrite !G0 by (cbn; tauto). cbn [orb].
    assert (G : is_prefix (bs "0o") (p ++ ds ++ suf ++ r) || is_prefix (bs "0O") (p ++ ds ++ suf ++ r) = true).
    { destruct Hp as [<- | [<- |[]]]; rewrite orb_true_iff; [left|right]; reflexivity. }
    rewrite G. assert (L2 : length p = 2%nat) by (destruct Hp as [<- | [<- |[]]]; reflexivity).
    rewrite (skipn_pre p) by auto. rewrite (span_ext _ _ _ class8), Sp by (auto; lia). f_equal.
    rewrite (suffix_len_ok _ _ suf r); auto.
    + rewrite !app_length. lia.
    + rewrite app_assoc. apply skipn_pre. rewrite app_length. lia.
  - assert (G0 : forall a, In a [bs "0x"; bs "0X"] -> is_prefix a (p ++ ds ++ suf ++ r) = false).
    { destruct Hp as [<- | [<- |[]]]; cbn [In]; intros a [<- |[<- |[]]]; reflexivity. }
    rewrite !G0 by (cbn; tauto). cbn [orb].
    assert (G : is_prefix (bs "0b") (p ++ ds ++ suf ++ r) || is_prefix (bs "0B") (p ++ ds ++ suf ++ r) = true).
    { destruct Hp as [<- | [<- |[]]]; rewrite orb_true_iff; [left|right]; reflexivity. }
    rewrite G. assert (L2 : length p = 2%nat) by (destruct Hp as [<- | [<- |[]]]; reflexivity).
    rewrite (skipn_pre p) by auto. rewrite (span_ext _ _ _ class2), Sp by (auto; lia). f_equal.
    rewrite (suffix_len_ok _ _ suf r); auto.
    + rewrite !app_length. lia.
    + rewrite app_assoc. apply skipn_pre. rewrite app_length. lia.
Qed.
