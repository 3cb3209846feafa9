(** Proofs about plugin blocks. *)
From Verif Require Import Common Lexer_Model Lexer_Spec Lexer_Proofs Lexer_Munch Lexer_Next Lexer_Props Macro_Model Macro_Spec.
Local Open Scope nat_scope.

Lemma cap_big : 8 <= body_cap.
Proof. unfold body_cap. lia. Qed.
Global Opaque body_cap.

Lemma bstrlen_ok (s : bytes) r : ~ In 0%N s -> bstrlen (map Some s ++ Some 0%N :: r) = Ok (length s).
Proof.
  induction s as [|c s IH]; intros H; [reflexivity|]. cbn [map app bstrlen length].
  destruct (N.eqb_spec c 0); [exfalso; apply H; left; auto|]. rewrite IH; [reflexivity|]. intros X; apply H; right; auto.
Qed.

Lemma bstr_ok (s : bytes) r : ~ In 0%N s -> bstr (map Some s ++ Some 0%N :: r) = s.
Proof.
  induction s as [|c s IH]; intros H; [reflexivity|]. cbn [map app bstr].
  destruct (N.eqb_spec c 0); [exfalso; apply H; left; auto|]. rewrite IH; [reflexivity|]. intros X; apply H; right; auto.
Qed.

Lemma bwrite_ok (t s : bytes) (r : buf N) : length t <= length r ->
  bwrite (map Some s ++ r) (length s) t = Ok (map Some (s ++ t) ++ skipn (length t) r).
Proof.
  revert s r. induction t as [|c t IH]; intros s r L; cbn [bwrite length].
  - now rewrite app_nil_r.
  - destruct r as [|x r]; cbn [length] in L; [lia|].
    unfold bset. rewrite app_length, map_length. cbn [length].
    destruct (Nat.ltb_spec (length s) (length s + S (length r))); [|lia]. cbn [bind].
    rewrite upd_middle' by apply map_length.
    change (Some c :: r) with (map Some [c] ++ r). rewrite app_assoc, <- map_app.
    replace (S (length s)) with (length (s ++ [c])) by (rewrite app_length; cbn; lia).
    rewrite IH by lia. rewrite <- app_assoc. reflexivity.
Qed.

(** The array holds the text [s] *)
Definition holds (b : buf N) (s : bytes) : Prop :=
  ~ In 0%N s /\ length b = body_cap /\ exists r, b = map Some s ++ Some 0%N :: r.

Lemma holds_str b s : holds b s -> bstr b = s.
Proof. intros (Z & _ & r & ->). now apply bstr_ok. Qed.

Lemma holds_write b s t : holds b s -> ~ In 0%N t -> length s + length t + 1 <= body_cap ->
  exists b', bwrite b (length s) (t ++ [0%N]) = Ok b' /\ holds b' (s ++ t).
Proof.
  intros (H & L & r & ->) T F. rewrite app_length, map_length in L. cbn [length] in L.
  rewrite bwrite_ok by (rewrite app_length; cbn [length]; lia).
  eexists. split; [reflexivity|]. repeat split.
  - rewrite in_app_iff. tauto.
  - rewrite app_length, map_length, skipn_length, !app_length. cbn [length]. lia.
  - exists (skipn (length (t ++ [0%N])) (Some 0%N :: r)). rewrite app_assoc, !map_app, <- !app_assoc. reflexivity.
Qed.

Lemma holds_cat b s t : holds b s -> ~ In 0%N t -> length s + length t + 1 <= body_cap ->
  exists b', bstrncat b t = Ok b' /\ holds b' (s ++ t).
Proof.
  intros H T F. destruct (holds_write b s t H T F) as (b' & E & H').
  exists b'. split; auto. destruct H as (H & L & r & ->). unfold bstrncat. now rewrite bstrlen_ok.
Qed.

Lemma new_holds : exists b, bset (bnew body_cap) 0 0%N = Ok b /\ holds b [].
Proof.
  pose proof cap_big. unfold bset, bnew. rewrite repeat_length. destruct (Nat.ltb_spec 0 body_cap); [|lia].
  eexists. split; [reflexivity|]. destruct body_cap eqn:E; [lia|]. cbn [repeat upd]. repeat split; auto.
  - cbn. rewrite repeat_length. congruence.
  - now exists (repeat None n).
Qed.

Lemma text_tok src t : tok_text src t = text src t.
Proof. reflexivity. Qed.

Lemma text_in src t : ~ In 0%N src -> ~ In 0%N (text src t).
Proof.
  unfold text. intros H X. apply H. assert (In 0%N (skipn (tpos t) src)).
  { rewrite <- (firstn_skipn (tlen t) (skipn (tpos t) src)). apply in_app_iff; auto. }
  rewrite <- (firstn_skipn (tpos t) src). apply in_app_iff; auto.
Qed.
Lemma text_len src t : tpos t + tlen t <= length src -> length (text src t) = tlen t.
Proof. intros H. unfold text. rewrite firstn_length, skipn_length. lia. Qed.

(** What is kept of the tokens when [n] bytes are in the array *)
Fixpoint kept (src : bytes) (n line : nat) (ts : list token) : bytes :=
  match ts with
  | [] => []
  | t :: ts =>
    if n + tlen t + 2 <? body_cap
    then (if line <? tline t then 10%N else 32%N) :: text src t ++ kept src (n + S (tlen t)) (tline t) ts
    else kept src n (tline t) ts
  end.

Lemma put_ok src t b s line : ~ In 0%N src -> tpos t + tlen t <= length src -> holds b s ->
  exists b' n', put_token src t b (length s) line = Ok (b', n') /\
    if length s + tlen t + 2 <? body_cap
    then holds b' (s ++ (if line <? tline t then 10%N else 32%N) :: text src t) /\ n' = length s + S (tlen t)
    else holds b' s /\ n' = length s.
Proof.
  intros Z L H. unfold put_token. destruct (Nat.ltb_spec (length s + tlen t + 2) body_cap) as [F|F]; [|eauto].
  pose proof (text_len _ _ L) as TL.
  set (c := if line <? tline t then 10%N else 32%N).
  assert (C : ~ In 0%N [c]) by (intros [X|[]]; unfold c in X; destruct (line <? tline t); discriminate).
  destruct (holds_write b s [c] H C) as (b1 & E1 & H1); [cbn; lia|]. cbn [app] in E1. rewrite E1. cbn [bind].
  destruct (holds_cat b1 (s ++ [c]) (text src t) H1 (text_in _ _ Z)) as (b2 & E2 & H2).
  { rewrite app_length. cbn [length]. lia. }
  rewrite text_tok, E2. cbn [bind]. exists b2, (S (length s) + tlen t). split; auto. split; [|lia].
  rewrite <- app_assoc in H2. exact H2.
Qed.

Lemma keyword_not w : keyword w <> Some TOK_RBRACE.
Proof.
  unfold keyword. repeat match goal with |- context[if ?c then _ else _] => destruct c end; discriminate.
Qed.
Lemma rbrace_one s ty n : here false s ty n -> ty = TOK_RBRACE -> n = 1 /\ firstn 1 s = bs "}".
Proof.
  intros H ->. unfold here in H. destruct (is_prefix (bs "//") s); [destruct H; discriminate|].
  destruct (is_prefix (bs "/*") s); [destruct H; discriminate|]. destruct H as [m H].
  unfold lex_token in H. destruct s as [|c s]; [discriminate|].
  destruct (c =? 35)%N; [discriminate|].
  match type of H with (if ?c then _ else _) = _ => destruct c end.
  { destruct (keyword _) eqn:K; [|discriminate]. injection H as -> _ _. now apply keyword_not in K. }
  destruct (is_prefix [102%N; 34%N] (c :: s)). { apply bind_Ok in H. destruct H as (? & _ & H). discriminate. }
  match type of H with (if ?c then _ else _) = _ => destruct c; [discriminate|] end.
  destruct (isdigit c).
  { destruct (number_len (c :: s)) as [ty k] eqn:E. injection H as -> _ _. unfold number_len in E.
    repeat match type of E with context[if ?c then _ else _] => destruct c; try discriminate E end;
    destruct (fraction _ _), (exponent _ _); cbn in E; destruct (_ || _) in E; discriminate. }
  destruct (c =? 34)%N. { apply bind_Ok in H. destruct H as (? & _ & H). discriminate. }
  destruct (c =? 39)%N. { apply bind_Ok in H. destruct H as (? & _ & H). discriminate. }
  destruct (operator (c :: s)) as [ty k] eqn:E. injection H as -> <- _. unfold operator in E.
  repeat match type of E with (if ?c then _ else _) = _ => destruct c; try discriminate E end.
  injection E as E1 <-.
  repeat match type of E1 with (if (?a =? ?b)%N then _ else _) = _ => destruct (N.eqb_spec a b); try discriminate E1 end.
  subst. auto.
Qed.

Lemma collect_ok n : forall l b s d line, ~ In 0%N (lsrc l) -> lpos l <= length (lsrc l) -> lemit l = false -> 1 <= d ->
  holds b s ->
  match collect n l b (length s) d line with
  | Ok (b', l') => exists ts, Block (lsrc l) (lpos l) d ts (lpos l') /\ lsrc l' = lsrc l /\ lpos l' <= length (lsrc l) /\
      lpos l < lpos l' /\ Forall (fun t => 0 < tlen t /\ tpos t + tlen t <= length (lsrc l)) ts /\
      holds b' (s ++ kept (lsrc l) (length s) line ts)
  | UB => ~ ends_well (lsrc l)
  | Panic => True
  | Fuel => n <= length (lsrc l) - lpos l
  end.
Proof.
  induction n as [|n IH]; intros l b s d line Z Lp Em D H; [cbn; lia|]. cbn [collect].
  destruct (lexer_next_fuel l Lp) as [[-> U]|(t & l' & -> & A1 & A2 & A3 & A4 & A5 & _)]; cbn [bind]; auto.
  rewrite Em in A5.
  destruct A5 as [(B1 & _)|(B1 & B2 & B3 & B4 & B5 & B6)]; [rewrite B1; exact Logic.I|].
  assert (Lt : tpos t + tlen t <= length (lsrc l)) by lia.
  pose proof (put_ok (lsrc l) t b s line Z Lt H) as (b1 & n1 & E1 & P1).
  (* the common continuation *)
  assert (K : forall d', 1 <= d' ->
    match (do '(b, body_len) <- put_token (lsrc l) t b (length s) line; collect n l' b body_len d' (tline t)) with
    | Ok (b', l'0) => exists ts, Block (lsrc l) (tpos t + tlen t) d' ts (lpos l'0) /\ lsrc l'0 = lsrc l /\ lpos l'0 <= length (lsrc l) /\
      lpos l < lpos l'0 /\ Forall (fun t => 0 < tlen t /\ tpos t + tlen t <= length (lsrc l)) ts /\
      holds b' (s ++ kept (lsrc l) (length s) line (t :: ts))
    | UB => ~ ends_well (lsrc l)
    | Panic => True
    | Fuel => S n <= length (lsrc l) - lpos l
    end).
  { intros d' D'. rewrite E1. cbn [bind kept].
    destruct (Nat.ltb_spec (length s + tlen t + 2) body_cap) as [F|F]; destruct P1 as [P1 ->].
    - set (s1 := s ++ (if line <? tline t then 10%N else 32%N) :: text (lsrc l) t) in *.
      assert (L1 : length s1 = length s + S (tlen t)).
      { unfold s1. rewrite app_length. cbn [length]. rewrite text_len; auto. }
      specialize (IH l' b1 s1 d' (tline t)). rewrite L1, A1, A2, Em, A3 in IH.
      specialize (IH Z ltac:(lia) eq_refl D' P1).
      destruct (collect n l' b1 (length s + S (tlen t)) d' (tline t)) as [[b' l'']| | |]; auto; [|lia].
      destruct IH as (ts & I1 & I2 & I3 & I4 & I5 & I6). exists ts. splits; auto; [lia|].
      unfold s1 in I6. rewrite <- app_assoc in I6. exact I6.
    - specialize (IH l' b1 s d' (tline t)). rewrite A1, A2, Em, A3 in IH.
      specialize (IH Z ltac:(lia) eq_refl D' P1).
      destruct (collect n l' b1 (length s) d' (tline t)) as [[b' l'']| | |]; auto; [|lia].
      destruct IH as (ts & I1 & I2 & I3 & I4 & I5 & I6). exists ts. splits; auto. lia. }
  destruct (tk t) eqn:Tk; try contradiction;
    try (destruct (Nat.eqb_spec d 0); [lia|]; specialize (K d D);
         destruct (do '(_, _) <- _; _) as [[b' l'']| | |]; auto;
         destruct K as (ts & K1 & K2 & K3 & K4 & K5 & K6); exists (t :: ts); splits; auto;
         apply Block_tok; auto; rewrite Tk; discriminate).
  - (* opening brace *)
    cbn [Nat.eqb]. specialize (K (S d) ltac:(lia)).
    destruct (do '(_, _) <- _; _) as [[b' l'']| | |]; auto.
    destruct K as (ts & K1 & K2 & K3 & K4 & K5 & K6). exists (t :: ts). splits; auto. apply Block_open; auto.
  - (* closing brace *)
    destruct (Nat.eqb_spec (pred d) 0).
    + exists []. cbn [kept]. rewrite app_nil_r, A3. splits; auto; try lia.
      replace d with 1 by lia. destruct (rbrace_one _ _ _ B6 eq_refl) as [R1 R2]. rewrite R1. apply Block_end; auto.
      unfold text. now rewrite R1.
    + specialize (K (pred d) ltac:(lia)).
      destruct (do '(_, _) <- _; _) as [[b' l'']| | |]; auto.
      destruct K as (ts & K1 & K2 & K3 & K4 & K5 & K6). exists (t :: ts). splits; auto. apply Block_close; auto. lia.
Qed.

Lemma kept_all src ts : forall n line, Forall (fun t => 0 < tlen t /\ tpos t + tlen t <= length src) ts ->
  n + length (joined src line ts) + 1 < body_cap -> kept src n line ts = joined src line ts.
Proof.
  induction ts as [|t ts IH]; intros n line F L; [reflexivity|]. inversion F; subst.
  cbn [kept joined length] in *. rewrite app_length, text_len in L by tauto.
  destruct (Nat.ltb_spec (n + tlen t + 2) body_cap); [|lia]. rewrite IH; auto. lia.
Qed.

(** *** Characters *)
Lemma solid_app a b : solid (a ++ b) = solid a ++ solid b.
Proof. apply filter_app. Qed.

Lemma gap_solid s s' : Gap false s s' -> ~ occurs (bs "//") s -> ~ occurs (bs "/*") s -> exists g, s = g ++ s' /\ solid g = [].
Proof.
  intros G. induction G as [s|c s s' B G IH|body s s' _ _ _ G IH|body s s' _ _ G IH|body _ _]; intros N1 N2.
  - now exists [].
  - destruct IH as (g & -> & E).
    + intros (a & b & ->). apply N1. exists (c :: a), b. reflexivity.
    + intros (a & b & ->). apply N2. exists (c :: a), b. reflexivity.
    + exists (c :: g). split; auto. unfold solid. cbn [filter]. apply isspace_blank in B. now rewrite B.
  - exfalso. apply N1. now exists [], (body ++ s).
  - exfalso. apply N2. exists [], (body ++ bs "*/" ++ s). reflexivity.
  - exfalso. apply N2. now exists [], body.
Qed.

Lemma occurs_skipn p (s : bytes) n : occurs p (skipn n s) -> occurs p s.
Proof. intros (a & b & E). exists (firstn n s ++ a), b. rewrite <- app_assoc, <- E. symmetry. apply firstn_skipn. Qed.

Lemma skipn_gap (src : bytes) p q g : p <= length src -> q <= length src ->
  skipn p src = g ++ skipn q src -> q = p + length g /\ firstn (q - p) (skipn p src) = g.
Proof.
  intros Lp Lq E. assert (L : length (skipn p src) = length (g ++ skipn q src)) by now rewrite E.
  rewrite app_length, !skipn_length in L. assert (q = p + length g) by lia. split; auto.
  rewrite E. replace (q - p) with (length g) by lia.
  rewrite firstn_app, firstn_all, Nat.sub_diag. cbn. apply app_nil_r.
Qed.

Lemma seg_split (src : bytes) p m q : p <= m -> m <= q ->
  firstn (q - p) (skipn p src) = firstn (m - p) (skipn p src) ++ firstn (q - m) (skipn m src).
Proof.
  intros A B. replace (q - p) with ((m - p) + (q - m)) by lia. rewrite firstn_add. f_equal.
  rewrite skipn_skipn'. repeat f_equal. lia.
Qed.


Lemma block_facts src p d ts q : Block src p d ts q -> p <= length src -> q <= length src ->
  Forall (fun t => 0 < tlen t /\ tpos t + tlen t <= length src) ts ->
  p < q /\ (forall line, length (joined src line ts) <= 2 * (q - 1 - p)) /\
  (~ occurs (bs "//") src -> ~ occurs (bs "/*") src -> forall line,
    solid (joined src line ts) = solid (firstn (q - 1 - p) (skipn p src))).
Proof.
  intros B. 
  assert (K : forall p t ts q, p <= length src -> q <= length src ->
    Gap false (skipn p src) (skipn (tpos t) src) -> p <= tpos t ->
    0 < tlen t /\ tpos t + tlen t <= length src ->
    tpos t + tlen t < q /\ (forall line, length (joined src line ts) <= 2 * (q - 1 - (tpos t + tlen t))) /\
    (~ occurs (bs "//") src -> ~ occurs (bs "/*") src -> forall line,
      solid (joined src line ts) = solid (firstn (q - 1 - (tpos t + tlen t)) (skipn (tpos t + tlen t) src))) ->
    p < q /\ (forall line, length (joined src line (t :: ts)) <= 2 * (q - 1 - p)) /\
    (~ occurs (bs "//") src -> ~ occurs (bs "/*") src -> forall line,
      solid (joined src line (t :: ts)) = solid (firstn (q - 1 - p) (skipn p src)))).
  { clear. intros p t ts q Lp Lq G Q [T1 T2] (A1 & A2 & A3). splits.
    - lia.
    - intros line. cbn [joined length]. rewrite app_length, text_len by auto. specialize (A2 (tline t)). lia.
    - intros N1 N2 line. cbn [joined].
      change (solid ([if line <? tline t then 10%N else 32%N] ++ text src t ++ joined src (tline t) ts) =
        solid (firstn (q - 1 - p) (skipn p src))).
      rewrite !solid_app, A3 by auto.
      replace (solid [if line <? tline t then 10%N else 32%N]) with (@nil N) by (destruct (line <? tline t); reflexivity).
      rewrite (seg_split src p (tpos t) (q - 1)), (seg_split src (tpos t) (tpos t + tlen t) (q - 1)) by lia.
      rewrite !solid_app. replace (tpos t + tlen t - tpos t) with (tlen t) by lia. fold (text src t).
      destruct (gap_solid _ _ G) as (g & E & Sg).
      { intros X. apply N1. eapply occurs_skipn; eauto. }
      { intros X. apply N2. eapply occurs_skipn; eauto. }
      apply skipn_gap in E; [|lia|lia]. destruct E as [_ ->]. now rewrite Sg. }
  induction B as [p t G Q B T|p d t ts q G Q B Bl IH|p d t ts q G Q B D Bl IH|p d t ts q G Q B1 B2 B3 Bl IH];
    intros Lp Lq F; try (inversion F as [|? ? F1 F2]; subst; apply (K p t ts q); auto; apply IH; auto; lia).
  splits; [lia|cbn; lia|]. intros N1 N2 line. cbn [joined].
  destruct (gap_solid _ _ G) as (g & E & Sg).
  { intros X. apply N1. eapply occurs_skipn; eauto. }
  { intros X. apply N2. eapply occurs_skipn; eauto. }
  apply skipn_gap in E; [|lia|lia]. destruct E as [_ E]. replace (tpos t + 1 - 1 - p) with (tpos t - p) by lia.
  rewrite E, Sg. reflexivity.
Qed.

(** *** plugin name ... end *)
Fixpoint kept_end (src : bytes) (n : nat) (ts : list token) : bytes :=
  match ts with
  | [] => []
  | t :: ts =>
    if n + tlen t + 2 <? body_cap then text src t ++ 32%N :: kept_end src (n + tlen t + 1) ts
    else kept_end src n ts
  end.

Lemma end_iff src t : tpos t + tlen t <= length src ->
  (match tk t with TOK_IDENT => true | _ => false end) && (tlen t =? 3) && is_prefix (bs "end") (skipn (tpos t) src) = true <->
  is_end src t /\ tlen t = 3.
Proof.
  intros L. unfold is_end. rewrite !andb_true_iff, Nat.eqb_eq. split.
  - intros [[A B] C]. splits; auto. { destruct (tk t); auto; discriminate. }
    apply is_prefix_spec in C. destruct C as [r C]. unfold text. rewrite C, B. reflexivity.
  - intros [[A B] C]. rewrite A. splits; auto. apply is_prefix_spec. exists (skipn 3 (skipn (tpos t) src)).
    unfold text in B. rewrite C in B. rewrite <- B. symmetry. apply firstn_skipn.
Qed.

Lemma collect_end_ok n : forall l b s, ~ In 0%N (lsrc l) -> lpos l <= length (lsrc l) -> lemit l = false -> holds b s ->
  match collect_end n l b (length s) with
  | Ok (b', l') => exists ts, Upto (lsrc l) (lpos l) ts (lpos l') /\ lsrc l' = lsrc l /\
      Forall (fun t => tpos t + tlen t <= length (lsrc l)) ts /\
      holds b' (s ++ kept_end (lsrc l) (length s) ts)
  | UB => ~ ends_well (lsrc l)
  | Panic => True
  | Fuel => n <= length (lsrc l) - lpos l
  end.
Proof.
  induction n as [|n IH]; intros l b s Z Lp Em H; [cbn; lia|]. cbn [collect_end].
  destruct (lexer_next_fuel l Lp) as [[-> U]|(t & l' & -> & A1 & A2 & A3 & A4 & A5 & _)]; cbn [bind]; auto.
  rewrite Em in A5.
  destruct A5 as [(B1 & _)|(B1 & B2 & B3 & B4 & B5 & B6)]; [rewrite B1; exact Logic.I|].
  assert (Lt : tpos t + tlen t <= length (lsrc l)) by lia.
  pose proof (text_len _ _ Lt) as TL.
  pose proof (end_iff (lsrc l) t Lt) as EI.
  match goal with |- match ?m with Ok _ => _ | Panic => _ | UB => _ | Fuel => _ end =>
    assert (K : m = if (match tk t with TOK_IDENT => true | _ => false end) && (tlen t =? 3)
         && is_prefix (bs "end") (skipn (tpos t) (lsrc l))
      then Ok (b, l')
      else if length s + tlen t + 2 <? body_cap then
        do b <- bstrncat b (tok_text (lsrc l) t);
        do b <- bwrite b (length s + tlen t) [32%N; 0%N];
        collect_end n l' b (length s + tlen t + 1)
      else collect_end n l' b (length s)) by (destruct (tk t); try reflexivity; contradiction)
  end.
  rewrite K. clear K.
  destruct ((match tk t with TOK_IDENT => true | _ => false end) && (tlen t =? 3)
         && is_prefix (bs "end") (skipn (tpos t) (lsrc l))).
  { destruct EI as [EI _]. destruct (EI eq_refl) as [E1 E2]. exists []. cbn [kept_end]. rewrite app_nil_r.
    rewrite A3, E2. splits; auto. apply Upto_end; auto. }
  assert (NE : ~ is_end (lsrc l) t).
  { intros X. destruct EI as [_ EI]. assert (false = true); [|discriminate]. apply EI. split; auto.
    destruct X as [_ X]. rewrite <- TL, X. reflexivity. }
  destruct (Nat.ltb_spec (length s + tlen t + 2) body_cap) as [F|F].
  - destruct (holds_cat b s (text (lsrc l) t) H (text_in _ _ Z)) as (b1 & E1 & H1); [lia|].
    rewrite text_tok, E1. cbn [bind].
    destruct (holds_write b1 (s ++ text (lsrc l) t) [32%N] H1) as (b2 & E2 & H2).
    { intros [X|[]]; discriminate. }
    { rewrite app_length. cbn [length]. lia. }
    cbn [app] in E2. rewrite app_length, TL in E2. rewrite E2. cbn [bind].
    specialize (IH l' b2 ((s ++ text (lsrc l) t) ++ [32%N])). rewrite !app_length, TL in IH. cbn [length] in IH.
    rewrite A1, A2, A3, Em in IH. specialize (IH Z ltac:(lia) eq_refl H2).
    destruct (collect_end n l' b2 (length s + tlen t + 1)) as [[b' l'']| | |]; auto; [|lia].
    destruct IH as (ts & I1 & I2 & I3 & I4). exists (t :: ts). splits; auto.
    + apply Upto_tok; auto.
    + cbn [kept_end]. destruct (Nat.ltb_spec (length s + tlen t + 2) body_cap); [|lia].
      rewrite <- !app_assoc in I4. exact I4.
  - specialize (IH l' b s). rewrite A1, A2, A3, Em in IH. specialize (IH Z ltac:(lia) eq_refl H).
    destruct (collect_end n l' b (length s)) as [[b' l'']| | |]; auto; [|lia].
    destruct IH as (ts & I1 & I2 & I3 & I4). exists (t :: ts). splits; auto.
    + apply Upto_tok; auto.
    + cbn [kept_end]. destruct (Nat.ltb_spec (length s + tlen t + 2) body_cap); [lia|]. exact I4.
Qed.

Lemma kept_end_all src ts : forall n, Forall (fun t => tpos t + tlen t <= length src) ts ->
  n + length (spaced src ts) + 1 < body_cap -> kept_end src n ts = spaced src ts.
Proof.
  unfold spaced. induction ts as [|t ts IH]; intros n F L; [reflexivity|]. inversion F; subst.
  cbn [kept_end flat_map length] in *. rewrite !app_length, text_len in L by auto. cbn [length] in L.
  destruct (Nat.ltb_spec (n + tlen t + 2) body_cap); [|lia]. rewrite IH; auto; [|lia]. now rewrite <- app_assoc.
Qed.
