(** Proofs about calls and defaults *)
From Verif Require Import Common Pratt_Model Pratt_Spec Pratt_Proofs Pratt_Complete Pratt_Props Args_Model Args_Spec.
Local Open Scope nat_scope.

Lemma pbind_text p k ts n : pbind p k = PText ts n -> exists t m, p = PText t m /\ k t m = PText ts n.
Proof. destruct p as [t m| |]; cbn; intros H; try discriminate. eauto. Qed.
Lemma put_text l m ts n : put l m = PText ts n -> ts = l /\ n = m /\ m < 4096.
Proof. unfold put. destruct (Nat.ltb_spec m 4096); intros H1; [|discriminate]. inversion H1; subst. auto. Qed.

Lemma op_token_infix o : exists p, 1 <= p <= 8 /\ infix p (op_token o) (EBin o).
Proof. destruct o; eexists; (split; [|constructor]); lia. Qed.
Lemma prefix_token_spec u : exists o, prefix_token u = TOp o false /\ prefix o u.
Proof. destruct u; eexists; (split; [reflexivity|constructor]). Qed.

(** How a text starts and ends *)
Definition good_start (ts : list tok) : Prop :=
  match ts with TInt _ :: _ | TVar _ :: _ | TLparen :: _ => True | _ => False end.
Lemma good_start_app a b : good_start a -> good_start (a ++ b).
Proof. destruct a as [|[] a]; cbn; auto; contradiction. Qed.
Lemma good_cast ts : good_start ts -> cast_operand_start ts.
Proof. destruct ts as [|[] ts]; cbn; auto; contradiction. Qed.
Lemma last_try (a : list tok) t : ends_in_try (a ++ [t]) -> t = TQ.
Proof. intros [us E]. apply app_inj_tail in E. tauto. Qed.
Lemma paren_no_try ts : ~ ends_in_try (TLparen :: ts ++ [TRparen]).
Proof. intros H. change (TLparen :: ts ++ [TRparen]) with ((TLparen :: ts) ++ [TRparen]) in H. apply last_try in H. discriminate. Qed.
Lemma single_no_try t : t <> TQ -> ~ ends_in_try [t].
Proof. intros N H. apply (last_try []) in H. auto. Qed.

Section P.
Variable len : tok -> nat.
Variable post : N.

Definition shown_as (e : expr) (ts : list tok) : Prop := G 10 ts e /\ good_start ts /\ ~ ends_in_try ts.
Lemma of_paren e ts : G 1 ts e -> (forall x, ts <> [TVar x]) -> shown_as e (TLparen :: ts ++ [TRparen]).
Proof.
  intros D N. unfold shown_as; splits; [|exact Logic.I|apply paren_no_try].
  apply (G_up 10 11); [lia|]. now apply G_paren.
Qed.

Lemma args_shown : forall l first n ts m,
  (forall a t k, In a l -> ast_text len post a = PText t k -> shown_as a t) ->
  args_text (map (ast_text len post) l) first n = PText ts m ->
  if first then match l with [] => ts = [] | _ => GArgs ts l end
  else match l with [] => ts = [] | _ => exists tr, ts = TComma :: tr /\ GArgs tr l end.
Proof.
  induction l as [|a l IH]; intros first n ts m H E.
  - cbn in E. injection E as <- _. destruct first; reflexivity.
  - cbn [map args_text] in E. apply pbind_text in E. destruct E as (ta & na & Ea & E). cbn beta zeta in E.
    destruct (_ <? 4090) eqn:L in E; [|discriminate].
    apply pbind_text in E. destruct E as (tr & nr & Er & E). injection E as E1 E2.
    pose proof (H a ta na (or_introl eq_refl) Ea) as (Ga & _).
    assert (G1 : G 1 ta a) by (apply (G_up 1 10); [lia|exact Ga]).
    pose proof (IH false _ _ _ (fun b t k Hb => H b t k (or_intror Hb)) Er) as R. cbn iota in R.
    assert (X : GArgs (ta ++ tr) (a :: l)).
    { destruct l as [|b l].
      - subst tr. rewrite app_nil_r. now constructor.
      - destruct R as (tr' & -> & R). now constructor. }
    destruct first; cbn [app] in E1; subst ts.
    + exact X.
    + exists (ta ++ tr). split; [reflexivity|exact X].
Qed.

Lemma text_shown : forall n e ts m, esize e <= n -> printable e -> ast_text len post e = PText ts m -> shown_as e ts.
Proof.
  induction n as [|n IH]; intros e ts m S1 P E; [destruct e; cbn in S1; lia|].
  destruct P; cbn [esize] in S1; cbn [ast_text] in E.
  - apply put_text in E. destruct E as (-> & _ & _). unfold shown_as; splits; [|exact Logic.I|now apply single_no_try].
    apply (G_up 10 11); [lia|constructor].
  - apply put_text in E. destruct E as (-> & _ & _). unfold shown_as; splits; [|exact Logic.I|now apply single_no_try].
    apply (G_up 10 11); [lia|constructor].
  - apply pbind_text in E. destruct E as (ta & na & Ea & E). apply put_text in E. destruct E as (-> & _ & _).
    destruct (IH e ta na ltac:(lia) P Ea) as (D & _ & _).
    destruct (prefix_token_spec u) as (o & -> & PO).
    change (TLparen :: TOp o false :: ta ++ [TRparen]) with (TLparen :: (TOp o false :: ta) ++ [TRparen]).
    apply of_paren; [|discriminate]. apply (G_up 1 9); [lia|]. apply G_prefix; [exact PO|]. apply (G_up 9 10); [lia|exact D].
  - apply pbind_text in E. destruct E as (ta & na & Ea & E). apply put_text in E. destruct E as (-> & _ & _).
    destruct (IH e ta na ltac:(lia) P Ea) as (D & GS & _).
    assert (RP : forall j, repeat (TOp OMul false) j = map (TOp OMul) (repeat false j))
      by (induction j as [|j IHj]; [reflexivity|]; cbn [repeat map]; now rewrite IHj).
    replace (TLparen :: TLparen :: TVar x :: repeat (TOp OMul false) k ++ TRparen :: ta ++ [TRparen])
      with (TLparen :: (TLparen :: TVar x :: map (TOp OMul) (repeat false k) ++ TRparen :: ta) ++ [TRparen])
      by (rewrite RP; cbn [app]; rewrite <- !app_assoc; reflexivity).
    apply of_paren; [|discriminate]. apply (G_up 1 9); [lia|].
    rewrite <- (repeat_length false k) at 2. apply G_cast; [apply (G_up 9 10); [lia|exact D]|now apply good_cast].
  - apply pbind_text in E. destruct E as (tl & nl & El & E). apply pbind_text in E. destruct E as (tr & nr & Er & E).
    apply put_text in E. destruct E as (-> & _ & _).
    destruct (IH l tl nl ltac:(lia) P1 El) as (Dl & Gl & Nl). destruct (IH r tr nr ltac:(lia) P2 Er) as (Dr & _ & _).
    destruct (op_token_infix o) as (p & Hp & IO).
    replace (TLparen :: tl ++ op_token o :: tr ++ [TRparen]) with (TLparen :: (tl ++ op_token o :: tr) ++ [TRparen])
      by (rewrite <- app_assoc; reflexivity).
    apply of_paren.
    + apply (G_up 1 p); [lia|]. apply (G_infix p (op_token o) (EBin o)); auto.
      * apply (G_up p 10); [lia|exact Dl].
      * apply (G_up (S p) 10); [lia|exact Dr].
    + intros x X. destruct tl as [|t [|t2 tl]]; [contradiction| |]; cbn in X; discriminate.
  - apply pbind_text in E. destruct E as (tf & nf & Ef & E). destruct (nf + 1 <? 256); [|discriminate].
    apply pbind_text in E. destruct E as (ta & na & Ea & E). apply put_text in E. destruct E as (-> & _ & _).
    destruct (IH f tf nf ltac:(lia) P Ef) as (Df & Gf & Nf).
    assert (HA : forall a t k, In a l -> ast_text len post a = PText t k -> shown_as a t).
    { intros a t k Ha Et. eapply IH; [|rewrite Forall_forall in H; now apply H|exact Et].
      apply esize_in in Ha. lia. }
    pose proof (args_shown l true _ _ _ HA Ea) as A. cbn iota in A.
    unfold shown_as; splits; [|now apply good_start_app|].
    + destruct l as [|a l].
      * subst ta. now apply G_call0.
      * now apply G_call.
    + intros T. change (TLparen :: ta ++ [TRparen]) with ((TLparen :: ta) ++ [TRparen]) in T. rewrite app_assoc in T.
      apply last_try in T. discriminate.
  - apply pbind_text in E. destruct E as (ta & na & Ea & E). apply pbind_text in E. destruct E as (ti & ni & Ei & E).
    apply put_text in E. destruct E as (-> & _ & _).
    destruct (IH a ta na ltac:(lia) P1 Ea) as (Da & Ga & Na). destruct (IH i ti ni ltac:(lia) P2 Ei) as (Di & _ & _).
    unfold shown_as; splits; [|now apply good_start_app|].
    + apply G_index; [exact Da|]. apply (G_up 1 10); [lia|exact Di].
    + intros T. change (TLbracket :: ti ++ [TRbracket]) with ((TLbracket :: ti) ++ [TRbracket]) in T.
      rewrite app_assoc in T. apply last_try in T. discriminate.
  - apply pbind_text in E. destruct E as (ta & na & Ea & E). apply put_text in E. destruct E as (-> & _ & _).
    destruct (IH e ta na ltac:(lia) P Ea) as (Da & Ga & Na).
    unfold shown_as; splits; [|now apply good_start_app|].
    + apply G_member; [exact Da|right; eauto|left; eauto].
    + intros T. change [TOp ODot false; TVar f] with ([TOp ODot false] ++ [TVar f]) in T.
      rewrite app_assoc in T. apply last_try in T. discriminate.
Qed.
End P.

(** Parsing the text gives the expression back *)
Lemma text_parses len post type_list e ts m :
  printable e -> ast_text len post e = PText ts m ->
  (forall a b, ts = a ++ TLangle :: b -> type_list b = false) ->
  parse_expression type_list ts = Got (e, []).
Proof.
  intros P E T. destruct (text_shown len post (esize e) e ts m (Nat.le_refl _) P E) as (D & _ & _).
  assert (D1 : G 1 ts e) by (apply (G_up 1 10); [lia|exact D]).
  pose proof (C30_precedence_partial type_list ts [] e D1 Logic.I) as R. rewrite app_nil_r in R. apply R.
  destruct (proj1 G_arrows _ _ _ D1). now splits.
Qed.

(** * Values *)
Lemma eval_same V (I : interp V) e1 e2 : forall n e, esize e <= n -> (forall x, In x (names e) -> e1 x = e2 x) ->
  eval I e1 e = eval I e2 e.
Proof.
  induction n as [|n IH]; intros e S1 H; [destruct e; cbn in S1; lia|].
  destruct e; cbn [esize] in S1; cbn [names] in H; cbn [eval];
    repeat match goal with |- context [eval I e1 ?a] => rewrite (IH a); [|lia|intros; apply H; rewrite ?in_app_iff; tauto] end;
    try reflexivity.
  - apply H. now left.
  - f_equal. apply map_ext_in. intros a Ha. apply IH.
    + apply esize_in in Ha. lia.
    + intros x Hx. apply H. apply in_app_iff. right. apply in_flat_map. eauto.
Qed.

(** * Calls *)
Section C.
Variable len : tok -> nat.
Variable post : N.
Variable type_list : list tok -> bool.
(** The defaults of a list of parameters are kept faithfully *)
Definition kept (d : expr) : Prop :=
  exists ts m, ast_text len post d = PText ts m /\ printable d /\
    forall a b, ts = a ++ TLangle :: b -> type_list b = false.
Definition all_kept (ps : list param) : Prop := forall p d, In p ps -> p_default p = Some d -> kept d.

Lemma kept_at_call d : kept d -> default_at_call len post type_list d = Passed [d].
Proof.
  intros (ts & m & E & P & T). unfold default_at_call. rewrite E.
  now rewrite (text_parses len post type_list d ts m P E T).
Qed.
Fixpoint declared (ps : list param) : list expr :=
  match ps with [] => [] | p :: r => match p_default p with Some d => d :: declared r | None => declared r end end.
Lemma fill_declared ps : all_kept ps -> fill_defaults len post type_list ps = Passed (declared ps).
Proof.
  induction ps as [|p ps IH]; intros H; [reflexivity|]. cbn [fill_defaults declared].
  specialize (IH (fun q d Hq => H q d (or_intror Hq))).
  destruct (p_default p) as [d|] eqn:E; [|exact IH].
  rewrite (kept_at_call d (H p d (or_introl eq_refl) E)), IH. reflexivity.
Qed.
Lemma declared_length ps : length (declared ps) <= length ps.
Proof. induction ps as [|p ps IH]; cbn; [lia|]. destruct (p_default p); cbn; lia. Qed.
Lemma declared_full ps : length (declared ps) = length ps -> forall i p, nth_error ps i = Some p -> p_default p = nth_error (declared ps) i.
Proof.
  induction ps as [|q ps IH]; intros L i p H; [destruct i; discriminate|].
  cbn in L. pose proof (declared_length ps) as B. cbn [declared] in *.
  destruct (p_default q) as [d|] eqn:E; [|cbn in L; lia].
  destruct i as [|i]; cbn in H |- *; [injection H as ->; exact E|]. apply IH; [cbn in L; lia|exact H].
Qed.
Lemma validate_spec : forall ps args, validate ps args = true <-> in_order ps args.
Proof.
  induction ps as [|p ps IH]; intros args.
  - split; [|reflexivity]. intros _ j a x Ha Hx. destruct j; exact Logic.I.
  - destruct args as [|a args]; [split; [|reflexivity]; intros _ j b x Hb; destruct j; discriminate|].
    cbn [validate]. split.
    + intros V j b x Hb Hx. destruct j as [|j].
      * cbn in Hb |- *. injection Hb as ->. rewrite Hx in V. apply Bool.andb_true_iff in V.
        destruct V as [V _]. apply N.eqb_eq in V. congruence.
      * cbn in Hb |- *. assert (V' : validate ps args = true)
          by (destruct (a_name a); [apply Bool.andb_true_iff in V; tauto|exact V]).
        apply IH in V'. exact (V' j b x Hb Hx).
    + intros O. assert (V : validate ps args = true).
      { apply IH. intros j b x Hb Hx. exact (O (S j) b x Hb Hx). }
      destruct (a_name a) as [x|] eqn:E; [|exact V]. rewrite V.
      specialize (O 0 a x eq_refl E). cbn in O. subst x. now rewrite N.eqb_refl.
Qed.
End C.
