(** Lemmas on types in C. *)
From Verif Require Import Common Ctype_Model Ctype_Spec.
Local Open Scope nat_scope.

(** ** Tokens *)
Lemma lex_app a : forall w b, (match b with [] => True | c :: _ => word_char c = false end) ->
  lex w (a ++ b) = lex w a ++ toks b.
Proof.
  induction a as [|c a IH]; intros w b H; cbn [lex app].
  - unfold toks. destruct b as [|c b]; cbn [lex]; [now rewrite app_nil_r|]. rewrite H. reflexivity.
  - destruct (word_char c); [auto|]. rewrite <- app_assoc. f_equal. destruct (c =? 32)%N; [auto|]. cbn [app]. f_equal. auto.
Qed.
Lemma toks_sym a c b : word_char c = false -> c <> 32%N -> toks (a ++ c :: b) = toks a ++ S_ c :: toks b.
Proof.
  intros H1 H2. unfold toks at 1. rewrite lex_app by exact H1. fold (toks a). f_equal.
  unfold toks. cbn [lex]. rewrite H1. destruct (N.eqb_spec c 32); [contradiction|]. reflexivity.
Qed.
Lemma toks_sp a b : toks (a ++ 32%N :: b) = toks a ++ toks b.
Proof. unfold toks at 1. rewrite lex_app by reflexivity. reflexivity. Qed.
Lemma lex_word s : forall w, forallb word_char s = true -> lex w s = flush (w ++ s).
Proof.
  induction s as [|c s IH]; intros w H; cbn [lex]; [now rewrite app_nil_r|]. cbn [forallb] in H.
  apply andb_prop in H. destruct H as [-> H]. rewrite IH by exact H. now rewrite <- app_assoc.
Qed.
Lemma toks_word s : forallb word_char s = true -> toks s = flush s.
Proof. intros H. unfold toks. now rewrite lex_word. Qed.
Lemma toks_ident s : ident s -> toks s = [W s].
Proof. intros [H1 H2]. rewrite toks_word by auto. destruct s; [contradiction|reflexivity]. Qed.
Lemma toks_nil : toks [] = []. Proof. reflexivity. Qed.

(** ** Searching *)
Lemma split_none c p s : ~ In c s -> split_sub (c :: p) s = None.
Proof.
  induction s as [|x s IH]; intros H; cbn [split_sub is_prefix]; [reflexivity|].
  destruct (N.eqb_spec c x) as [->|Ne]; [exfalso; apply H; left; reflexivity|]. cbn [andb].
  rewrite IH; [reflexivity|]. intros K. apply H. right. exact K.
Qed.
Lemma split_first c p a b : ~ In c a -> is_prefix p b = true -> split_sub (c :: p) (a ++ c :: b) = Some (a, c :: b).
Proof.
  intros H P. induction a as [|x a IH]; cbn [app split_sub is_prefix].
  - rewrite N.eqb_refl, P. reflexivity.
  - destruct (N.eqb_spec c x) as [->|Ne]; [exfalso; apply H; left; reflexivity|]. cbn [andb].
    rewrite IH; [reflexivity|]. intros K. apply H. right. exact K.
Qed.

(** ** Characters *)
Definition okc (c : N) : bool := word_char c || (c =? 32)%N || (c =? 42)%N.
Lemma okc_not c s : okc c = false -> forallb okc s = true -> ~ In c s.
Proof. intros H F K. rewrite forallb_forall in F. apply F in K. congruence. Qed.
Lemma word_okc s : forallb word_char s = true -> forallb okc s = true.
Proof. intros H. rewrite forallb_forall in *. intros x I. unfold okc. now rewrite (H x I). Qed.

Lemma digits_word f : forall n, forallb word_char (digits f n) = true.
Proof.
  induction f as [|f IH]; intros n; [reflexivity|]. cbn [digits].
  assert (D : forall d, (d < 10)%N -> word_char (48 + d) = true).
  { intros d H. unfold word_char. destruct (N.leb_spec 48 (48 + d)); [|lia]. destruct (N.leb_spec (48 + d) 57); [|lia]. reflexivity. }
  destruct (N.ltb_spec n 10).
  - cbn [forallb]. rewrite D by lia. reflexivity.
  - rewrite forallb_app, IH. cbn [forallb]. rewrite D; [reflexivity|]. apply N.mod_lt. lia.
Qed.
Lemma digits_ne f n : digits (S f) n <> [].
Proof. cbn [digits]. destruct (n <? 10)%N; [discriminate|]. intros H. apply app_eq_nil in H. destruct H. discriminate. Qed.
Lemma dec_ident n : ident (dec n).
Proof. split; [apply digits_ne|apply digits_word]. Qed.

(** ** Plain types *)
Section Names.
  Variable zen_name : ty -> bytes.
  Notation plain := (plain zen_name).
  Notation arrays := (arrays zen_name).
  Notation usual := (usual zen_name).
  Notation fnptr := (fnptr zen_name).
  Notation cdecl := (cdecl zen_name).
  Notation parts := (parts zen_name).

  Lemma base_okc b : (match b with BStruct _ n | BEnum n => ident n | _ => True end) -> forallb okc (base_name b) = true.
  Proof.
    destruct b; intros H; try reflexivity; cbn [base_name].
    - destruct H as [_ H]. apply word_okc in H. destruct explicit; [|exact H]. rewrite forallb_app, H. reflexivity.
    - destruct H as [_ H]. now apply word_okc.
  Qed.

  Lemma ptr_plain r s : forallb okc s = true ->
    forallb okc (ptr_to r s) = true /\
    toks (ptr_to r s) = toks s ++ star ++ (if r then [W (bs "__restrict")] else []).
  Proof.
    intros H. unfold ptr_to. change (bs "(*") with (40 :: [42])%N. rewrite split_none by (apply (okc_not 40%N); auto).
    rewrite forallb_app, H. destruct r.
    - split; [reflexivity|]. change (bs "* __restrict") with (42 :: 32 :: bs "__restrict")%N.
      rewrite toks_sym by (reflexivity || discriminate). f_equal.
    - split; [reflexivity|]. change (bs "*") with (42 :: [])%N. rewrite toks_sym by (reflexivity || discriminate). reflexivity.
  Qed.

  Lemma plain_fixed t : plain t -> fixed t = false.
  Proof. induction 1; auto. Qed.

  Lemma plain_ok t : plain t -> exists s, parts t = Ok (s, []) /\ forallb okc s = true /\
    forall d, cdecl t d = toks s ++ d.
  Proof.
    induction 1 as [b Hb|r t H (s & P & O & C)|t I|args ret|t H (s & P & O & C)].
    - exists (base_name b). split; [reflexivity|]. split; [now apply base_okc|reflexivity].
    - cbn [Ctype_Model.parts]. rewrite P. cbn [bind]. rewrite app_nil_r. exists (ptr_to r s). split; [reflexivity|].
      destruct (ptr_plain r s O) as [P1 P2]. split; [exact P1|]. intros d.
      cbn [Ctype_Spec.cdecl]. rewrite plain_fixed by exact H. rewrite C, P2, <- !app_assoc. reflexivity.
    - exists (bs "Slice_" ++ zen_name t). split; [reflexivity|]. destruct I as [I1 I2]. split.
      + rewrite forallb_app, (word_okc _ I2). reflexivity.
      + intros d. cbn [Ctype_Spec.cdecl]. rewrite toks_ident; [reflexivity|]. split; [discriminate|].
        rewrite forallb_app, I2. reflexivity.
    - exists (bs "z_closure_T"). repeat split.
    - cbn [Ctype_Model.parts]. rewrite P. cbn [bind]. rewrite app_nil_r. exists s. splits; auto.
  Qed.

  (** ** Arrays *)
  Definition dimc (c : N) : bool := word_char c || (c =? 91)%N || (c =? 93)%N.
  Lemma arrays_ok t : arrays t -> exists a d, parts t = Ok (a, d) /\ forallb okc a = true /\ forallb dimc d = true /\
    (match d with [] => True | c :: _ => c = 91%N end) /\
    forall x, cdecl t x = toks a ++ x ++ toks d.
  Proof.
    induction 1 as [t H|t n P H (a & d & E & O & D & F & C)].
    - destruct (plain_ok t H) as (s & P & O & C). exists s, []. splits; auto. intros x. rewrite C, toks_nil, app_nil_r. reflexivity.
    - cbn [Ctype_Model.parts]. destruct (Z.eqb_spec n 0); [lia|]. destruct (Z.ltb_spec n 0); [lia|].
      rewrite E. cbn [bind]. exists a, (bs "[" ++ dec n ++ bs "]" ++ d). splits; auto.
      + rewrite !forallb_app, D. change (forallb dimc (bs "[")) with true. change (forallb dimc (bs "]")) with true.
        cbn [andb]. rewrite andb_true_r. destruct (dec_ident n) as [_ K]. rewrite forallb_forall in K.
        apply forallb_forall. intros y I. unfold dimc. now rewrite (K y I).
      + reflexivity.
      + intros x. cbn [Ctype_Spec.cdecl]. destruct (Z.eqb_spec n 0); [lia|]. rewrite C, <- !app_assoc. do 2 f_equal.
        change (bs "[" ++ dec n ++ bs "]" ++ d) with ([] ++ 91%N :: (dec n ++ 93%N :: d)).
        rewrite toks_sym by (reflexivity || discriminate). rewrite toks_sym by (reflexivity || discriminate).
        rewrite (toks_ident _ (dec_ident n)). reflexivity.
  Qed.

  (** ** Function pointers *)
  Scheme usual_mut := Induction for Ctype_Spec.usual Sort Prop
  with fnptr_mut := Induction for Ctype_Spec.fnptr Sort Prop
  with all_mut := Induction for Ctype_Spec.all_usual Sort Prop.

  Definition stars (k : nat) : bytes := repeat 42%N (S k).
  Lemma toks_stars k s : toks (stars k ++ s) = map S_ (stars k) ++ toks s.
  Proof.
    unfold stars. induction k as [|k IH].
    - change (repeat 42%N 1 ++ s) with ([] ++ 42%N :: s). rewrite toks_sym by (reflexivity || discriminate). reflexivity.
    - change (repeat 42%N (S (S k)) ++ s) with ([] ++ 42%N :: (repeat 42%N (S k) ++ s)).
      rewrite toks_sym by (reflexivity || discriminate). rewrite IH. reflexivity.
  Qed.

  Definition fn_form (t : ty) : Prop := exists r k l,
    parts t = Ok (r ++ bs " (" ++ stars k ++ bs ")(" ++ l ++ bs ")", []) /\ forallb okc r = true /\ fixed t = false /\
    forall x, cdecl t x = toks r ++ paren (map S_ (stars k) ++ x) ++ paren (toks l).
  Definition text_form (t : ty) : Prop := exists a d, parts t = Ok (a, d) /\ toks (a ++ d) = cdecl t [].

  Lemma fn_text r k l x : forallb word_char x = true ->
    toks (r ++ bs " (" ++ stars k ++ x ++ bs ")(" ++ l ++ bs ")") =
    toks r ++ paren (map S_ (stars k) ++ flush x) ++ paren (toks l).
  Proof.
    intros X.
    change (r ++ bs " (" ++ stars k ++ x ++ bs ")(" ++ l ++ bs ")")
      with (r ++ 32%N :: ([] ++ 40%N :: (stars k ++ x ++ 41%N :: ([] ++ 40%N :: (l ++ 41%N :: []))))).
    rewrite toks_sp. f_equal. rewrite toks_sym by (reflexivity || discriminate).
    rewrite toks_stars, toks_sym by (reflexivity || discriminate). rewrite (toks_word x) by exact X.
    rewrite toks_sym by (reflexivity || discriminate). rewrite toks_sym by (reflexivity || discriminate).
    rewrite toks_nil. unfold paren. cbn [app]. rewrite <- !app_assoc. cbn [app]. reflexivity.
  Qed.

  Definition args_form (l : list ty) : Prop := exists ps, all_ok (map parts l) = Ok ps /\
    toks (join (map (fun p => fst p ++ snd p) ps)) = commas (map (fun a => cdecl a []) l).

  Lemma forms : (forall t, usual t -> text_form t) /\ (forall t, fnptr t -> fn_form t) /\
    (forall l, all_usual zen_name l -> args_form l).
  Proof.
    assert (A1 : forall t, arrays t -> text_form t).
    { intros t H. destruct (arrays_ok t H) as (a & d & E & O & D & F & C). exists a, d. split; [exact E|].
      rewrite C. cbn [app]. destruct d as [|c d]; [now rewrite toks_nil, !app_nil_r|]. subst c.
      unfold toks at 1. now rewrite lex_app by reflexivity. }
    assert (A2 : forall t, fn_form t -> text_form t).
    { intros t (r & k & l & E & O & F & C). do 2 eexists. split; [exact E|]. rewrite app_nil_r, C, app_nil_r.
      pose proof (fn_text r k l [] eq_refl) as K. cbn [flush app] in K. rewrite app_nil_r in K. exact K. }
    assert (A3 : forall args ret, plain ret -> args_form args -> fn_form (TFun true args ret)).
    { intros args ret H (ps & E & T). destruct (plain_ok ret H) as (s & P & O & C).
      exists s, 0, (join (map (fun p => fst p ++ snd p) ps)). cbn [Ctype_Model.parts]. rewrite P. cbn [bind]. rewrite E. cbn [bind].
      splits; auto. intros x. cbn [Ctype_Spec.cdecl]. rewrite C, T. reflexivity. }
    assert (A4 : forall t, fn_form t -> fn_form (TPtr false t)).
    { intros t (r & k & l & E & O & F & C). exists r, (S k), l. cbn [Ctype_Model.parts]. rewrite E. cbn [bind]. rewrite app_nil_r.
      split; [|splits; auto].
      - do 2 f_equal. unfold ptr_to.
        change (bs "(*") with (40 :: [42])%N. change (bs " (") with ([32] ++ [40])%N.
        rewrite <- !app_assoc, (app_assoc r).
        change ([40%N] ++ stars k ++ bs ")(" ++ l ++ bs ")") with (40%N :: (stars k ++ bs ")(" ++ l ++ bs ")")).
        rewrite split_first; [|apply (okc_not 40%N); [reflexivity|rewrite forallb_app, O; reflexivity]|reflexivity].
        rewrite <- app_assoc. do 2 f_equal.
      - intros x. cbn [Ctype_Spec.cdecl]. rewrite F. rewrite C. unfold star. cbn [app].
        replace (map S_ (stars k) ++ S_ 42%N :: x) with (map S_ (stars (S k)) ++ x); [reflexivity|].
        change (S_ 42%N :: x) with (map S_ [42%N] ++ x). rewrite app_assoc, <- map_app. f_equal. f_equal.
        unfold stars. change [42%N] with (repeat 42%N 1). rewrite <- repeat_app. f_equal. lia. }
    assert (A5 : args_form []) by (exists []; split; reflexivity).
    assert (A6 : forall t l, text_form t -> args_form l -> args_form (t :: l)).
    { intros t l (a & d & E & T) (ps & E' & T'). exists ((a, d) :: ps). cbn [map all_ok]. rewrite E. cbn [bind]. rewrite E'. cbn [bind].
      split; [reflexivity|]. destruct l as [|t' l].
      - cbn in E'. injection E' as <-. cbn [map join commas fst snd]. exact T.
      - destruct ps as [|p ps]. { cbn [map all_ok] in E'. destruct (parts t') as [?| | |]; cbn [bind] in E'; try discriminate. destruct (all_ok (map parts l)); discriminate. }
        match goal with |- toks ?x = _ => change x
          with ((a ++ d) ++ 44%N :: ([] ++ 32%N :: join (map (fun p => fst p ++ snd p) (p :: ps)))) end.
        rewrite toks_sym by (reflexivity || discriminate). rewrite toks_sp, T, T'. reflexivity. }
    splits.
    - intros t H. induction H using usual_mut with (P := fun t _ => text_form t) (P0 := fun t _ => fn_form t) (P1 := fun l _ => args_form l); auto.
    - intros t H. induction H using fnptr_mut with (P := fun t _ => text_form t) (P0 := fun t _ => fn_form t) (P1 := fun l _ => args_form l); auto.
    - intros t H. induction H using all_mut with (P := fun t _ => text_form t) (P0 := fun t _ => fn_form t) (P1 := fun l _ => args_form l); auto.
  Qed.
End Names.

(** ** Declarations *)
Section Decl.
  Variable zen_name : ty -> bytes.
  Variable is_struct : bytes -> bool.
  Notation emit := (emit_c_decl is_struct).

  Lemma dimc_not c s : dimc c = false -> forallb dimc s = true -> ~ In c s.
  Proof. intros H F K. rewrite forallb_forall in F. apply F in K. congruence. Qed.

  Lemma emit_arrays a d name : forallb okc a = true -> forallb dimc d = true ->
    (match d with [] => True | c :: _ => c = 91%N end) -> emit (a ++ d) name = a ++ bs " " ++ name ++ d.
  Proof.
    intros O D F. unfold emit_c_decl.
    assert (N1 : forall c, okc c = false -> dimc c = false -> ~ In c (a ++ d)).
    { intros c H1 H2 I. apply in_app_or in I. destruct I as [I|I]; [now apply (okc_not c) in I|now apply (dimc_not c) in I]. }
    change (bs "(*") with (40 :: [42])%N. rewrite split_none by (apply N1; reflexivity).
    change (bs "<") with (60 :: [])%N. rewrite split_none by (apply N1; reflexivity).
    change (bs "[") with (91 :: [])%N. destruct d as [|c d].
    - rewrite split_none by (rewrite app_nil_r; apply (okc_not 91%N); auto). rewrite !app_nil_r. reflexivity.
    - subst c. rewrite split_first; [reflexivity|apply (okc_not 91%N); auto|reflexivity].
  Qed.

  Lemma emit_fn r k l name : forallb okc r = true ->
    emit (r ++ bs " (" ++ stars k ++ bs ")(" ++ l ++ bs ")") name = r ++ bs " (" ++ stars k ++ name ++ bs ")(" ++ l ++ bs ")".
  Proof.
    intros O. unfold emit_c_decl.
    change (bs "(*") with (40 :: [42])%N. change (bs " (") with ([32] ++ [40])%N.
    rewrite <- !app_assoc, !(app_assoc r).
    change ([40%N] ++ stars k ++ bs ")(" ++ l ++ bs ")") with (40%N :: (stars k ++ bs ")(" ++ l ++ bs ")")).
    rewrite split_first; [|apply (okc_not 40%N); [reflexivity|rewrite forallb_app, O; reflexivity]|reflexivity].
    change (bs ")") with (41 :: [])%N at 1.
    change (40%N :: stars k ++ bs ")(" ++ l ++ bs ")") with ((40%N :: stars k) ++ 41%N :: (40%N :: (l ++ bs ")"))).
    rewrite split_first; [|intros [I|I]; [discriminate I|apply repeat_spec in I; discriminate]|reflexivity].
    rewrite <- !app_assoc. reflexivity.
  Qed.

  Lemma toks_arrays a d name : forallb word_char name = true -> (match d with [] => True | c :: _ => c = 91%N end) ->
    toks (a ++ bs " " ++ name ++ d) = toks a ++ flush name ++ toks d.
  Proof.
    intros Hn F. change (bs " " ++ name ++ d) with (32%N :: (name ++ d)). rewrite toks_sp. f_equal.
    unfold toks at 1. rewrite lex_app by (destruct d; auto; subst; reflexivity). f_equal. now apply toks_word.
  Qed.

  Lemma const_word a : toks (bs "const " ++ a) = W (bs "const") :: toks a.
  Proof. change (bs "const " ++ a) with (bs "const" ++ 32%N :: a). rewrite toks_sp. reflexivity. Qed.

  Definition is_const (t : ty) : bool := match t with TConst _ => true | _ => false end.
  Lemma usual_not_const t : usual zen_name t -> is_const t = false.
  Proof.
    intros H. destruct H as [t H|t H].
    - destruct H as [t H|]; [destruct H; reflexivity|reflexivity].
    - destruct H; reflexivity.
  Qed.
  Lemma c_string_parts t : is_const t = false -> c_string zen_name t = (do '(a, d) <- parts zen_name t; Ok (a ++ d)).
  Proof. destruct t; (reflexivity || discriminate). Qed.

  Lemma var_ok t name : usual zen_name t -> forallb word_char name = true ->
    (exists s, var_decl zen_name is_struct t name = Ok s /\ toks s = cdecl zen_name t (flush name)) /\
    (exists s, var_decl zen_name is_struct (TConst t) name = Ok s /\ toks s = cdecl zen_name (TConst t) (flush name)).
  Proof.
    intros U Hn. pose proof (usual_not_const _ U) as NC. unfold var_decl. rewrite (c_string_parts _ NC).
    cbn [c_string cdecl]. destruct U as [t H|t H].
    - destruct (arrays_ok _ _ H) as (a & d & E & O & D & F & C). rewrite E. cbn [bind]. rewrite C.
      split; eexists; (split; [reflexivity|]).
      + rewrite emit_arrays by auto. now apply toks_arrays.
      + rewrite app_assoc, emit_arrays by (auto; rewrite forallb_app, O; reflexivity).
        rewrite toks_arrays by auto. now rewrite const_word.
    - destruct (proj1 (proj2 (forms zen_name)) _ H) as (r & k & l & E & O & F & C). rewrite E. cbn [bind]. rewrite C.
      split; eexists; (split; [reflexivity|]).
      + rewrite app_nil_r, emit_fn by exact O. now apply fn_text.
      + rewrite app_nil_r, (app_assoc (bs "const ")), emit_fn by (rewrite forallb_app, O; reflexivity).
        rewrite fn_text by exact Hn. now rewrite const_word.
  Qed.

  Lemma join_commas (ps : list bytes) (ts : list (list ctok)) :
    Forall2 (fun s t => toks s = t) ps ts -> toks (join ps) = commas ts.
  Proof.
    induction 1 as [|s t ps ts E H IH]; [reflexivity|]. destruct H as [|s' t' ps ts E' H].
    - exact E.
    - change (join (s :: s' :: ps)) with (s ++ 44%N :: ([] ++ 32%N :: join (s' :: ps))).
      rewrite toks_sym by (reflexivity || discriminate). rewrite toks_sp, E, IH. reflexivity.
  Qed.

  Definition param_ok (p : ty * bytes) : Prop := usual zen_name (fst p) /\ forallb word_char (snd p) = true.
  Lemma params_ok ps : Forall param_ok ps ->
    exists l, all_ok (map (fun p => var_decl zen_name is_struct (fst p) (snd p)) ps) = Ok l /\
      Forall2 (fun s t => toks s = t) l (map (fun p => cdecl zen_name (fst p) (flush (snd p))) ps).
  Proof.
    induction 1 as [|p ps [U Hn] H (l & E & F)]; [exists []; split; [reflexivity|constructor]|].
    destruct (proj1 (var_ok _ _ U Hn)) as (s & V & T). cbn [map all_ok]. rewrite V. cbn [bind]. rewrite E. cbn [bind].
    exists (s :: l). split; [reflexivity|]. constructor; auto.
  Qed.
End Decl.

(** ** Numbers *)
Definition value (s : bytes) : N := fold_left (fun v c => v * 10 + (c - 48))%N s 0%N.
Lemma digits_value f : forall n, (n < 2 ^ N.of_nat f)%N -> value (digits f n) = n.
Proof.
  induction f as [|f IH]; intros n H; [cbn in *; lia|]. cbn [digits].
  destruct (N.ltb_spec n 10).
  - unfold value. cbn [fold_left]. lia.
  - unfold value in *. rewrite fold_left_app. cbn [fold_left]. rewrite IH.
    + pose proof (N.div_mod n 10 ltac:(lia)). lia.
    + replace (N.of_nat (S f)) with (N.succ (N.of_nat f)) in H by lia. rewrite N.pow_succ_r' in H.
      apply N.div_lt_upper_bound; [lia|]. pose proof (N.pow_nonzero 2 (N.of_nat f)). lia.
Qed.
Lemma dec_value n : (0 <= n)%Z -> value (dec n) = Z.to_N n.
Proof.
  intros H. unfold dec. apply digits_value. rewrite Nat2N.inj_succ, N2Nat.id.
  destruct (N.eq_dec (Z.to_N n) 0) as [E|E]; [rewrite E; reflexivity|]. apply N.log2_lt_pow2; lia.
Qed.
