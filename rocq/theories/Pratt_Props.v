(** C30: binary operators group by precedence, left to right.  C55: compound assignment. *)
From Verif Require Import Common Pratt_Model Pratt_Spec Pratt_Proofs Pratt_Complete.
Local Open Scope nat_scope.

(** The parser always answers: it never loops, and the rest is a shorter suffix *)
Theorem C30_total type_list ts :
  parse_expression type_list ts <> Fuel /\
  forall e rest, parse_expression type_list ts = Got (e, rest) -> length rest <= length ts - 1.
Proof.
  pose proof (parse_enough type_list PREC_NONE ts) as P. unfold parse_expression.
  destruct (parse type_list (4 * length ts + 2) PREC_NONE ts) as [[e r]| | |]; cbn in P; try tauto;
    (split; [discriminate|]); intros e' r' H; inversion H; subst; exact P.
Qed.

Lemma adjk_of ts rest : adj ts -> next_ok rest -> adjk (length rest) (ts ++ rest).
Proof.
  intros A N. induction ts as [|t ts IH].
  - cbn [app].
    assert (V : forall r, length r <= length rest -> adjk (length rest) r).
    { induction r as [|t r IH]; intros L; [exact I|]. cbn in L. split; [|apply IH; lia].
      destruct t; auto. lia. }
    apply V. lia.
  - destruct A as [A1 A2]. split; [|now apply IH]. destruct t; auto. intros _.
    destruct ts as [|t2 ts]; [exact N|]. cbn [app]. destruct t2 as [ | |[] ?| | | | | | | | | | | | | | | | | | | | | | | ]; exact A1.
Qed.

(** Whatever the grammar derives, the parser returns, and it stops at the closing token *)
Theorem C30_precedence_partial type_list ts rest e :
  G 1 ts e -> closed rest -> plain type_list (ts ++ rest) ->
  parse_expression type_list (ts ++ rest) = Got (e, rest).
Proof.
  intros D CL (P1 & P2 & P3).
  assert (CE : eff rest = 0 /\ starts_ternary rest = false /\ next_ok rest).
  { destruct rest as [|t r]; [now repeat split|]. cbn in CL.
    destruct CL as [<-|[<-|[<-|[<-|[<-|[<-|[]]]]]]]; now repeat split. }
  destruct CE as (E1 & E2 & E3).
  assert (Q : Ev (fun f => parse type_list f 0 (ts ++ rest)) (e, rest)).
  { apply (proj1 (complete type_list (length rest)) 1 ts e D rest 0 (e, rest)); try lia.
    - unfold clean. splits; auto. apply adjk_of; auto. eapply (proj1 G_adj); eauto.
    - split; [intros _; rewrite E1; cbn; lia|auto].
    - apply loop_stop; lia. }
  destruct Q as [f Q]. apply (parse_top type_list f 0). apply Q. lia.
Qed.

(** An expression ends before each of the four operators that can also start one, if the
    operator starts a line. *)
Theorem C30_line_partial type_list ts o rest e :
  G 1 ts e -> In o [OMul; OAnd; OAdd; OSub] -> ~ ends_in_try ts -> plain type_list (ts ++ TOp o true :: rest) ->
  parse_expression type_list (ts ++ TOp o true :: rest) = Got (e, TOp o true :: rest).
Proof.
  intros D IO NT (P1 & P2 & P3).
  assert (CE : eff (TOp o true :: rest) = 0 /\ next_ok (TOp o true :: rest)).
  { cbn in IO. destruct IO as [<-|[<-|[<-|[<-|[]]]]]; now split. }
  destruct CE as (E1 & E3).
  assert (Q : Ev (fun f => parse type_list f 0 (ts ++ TOp o true :: rest)) (e, TOp o true :: rest)).
  { apply (proj1 (complete type_list (length (TOp o true :: rest))) 1 ts e D _ 0 (e, TOp o true :: rest)); try lia.
    - unfold clean. splits; auto. apply adjk_of; auto. eapply (proj1 G_adj); eauto.
    - split; [intros _; rewrite E1; cbn; lia|contradiction].
    - apply loop_stop; lia. }
  destruct Q as [f Q]. apply (parse_top type_list f 0). apply Q. lia.
Qed.
Example C30_line_case type_list a b c :
  G 1 [TVar a; TOp OAdd false; TVar b] (EBin BAdd (EVar a) (EVar b)) /\
  parse_expression type_list [TVar a; TOp OAdd false; TVar b; TOp OSub true; TVar c] =
    Got (EBin BAdd (EVar a) (EVar b), [TOp OSub true; TVar c]).
Proof.
  split; [|reflexivity]. apply (G_up 1 7); [lia|].
  apply (G_infix 7 (TOp OAdd false) (EBin BAdd) [TVar a] (EVar a) [TVar b] (EVar b)).
  - constructor.
  - apply (G_up 7 11); [lia|constructor].
  - apply (G_up 8 11); [lia|constructor].
  - intros [[|? [|? ?]] E]; discriminate.
Qed.

(** * Printing *)
Fixpoint esize (e : expr) : nat :=
  match e with
  | EInt _ | EVar _ => 1
  | EUn _ e | EPost _ e | ECast _ _ e | ETry e | EMember _ e _ => S (esize e)
  | EBin _ l r | EIndex l r => S (esize l + esize r)
  | ETern c a b => S (esize c + esize a + esize b)
  | ECall f l => S (esize f + fold_right (fun a s => esize a + s) 0 l)
  end.
Lemma esize_in a l : In a l -> esize a <= fold_right (fun a s => esize a + s) 0 l.
Proof. induction l as [|b l IH]; [intros []|]. intros [-> | H]; cbn; [lia|]. specialize (IH H). lia. Qed.

Lemma bin_token_infix o : infix (fst (bin_token o)) (snd (bin_token o)) (EBin o).
Proof. destruct o; constructor. Qed.
Lemma ends_tryb_spec ts : ends_tryb ts = true <-> ends_in_try ts.
Proof.
  unfold ends_tryb. split.
  - intros H. destruct (rev ts) as [|t r] eqn:E; [discriminate|]. destruct t; try discriminate.
    exists (rev r). rewrite <- (rev_involutive ts), E. reflexivity.
  - intros [us ->]. now rewrite rev_app_distr.
Qed.
Lemma operand_startb_spec ts : operand_startb ts = true <-> operand_start ts.
Proof.
  destruct ts as [|t ts]; [now split|].
  destruct t as [ | |[] ?| | | | | | | | | | | | | | | | | | | | | | | ]; cbn; intuition discriminate.
Qed.
Lemma cast_startb_spec ts : cast_startb ts = true <-> cast_operand_start ts.
Proof.
  destruct ts as [|t ts]; [now split|].
  destruct t as [ | |[] ?| | | | | | | | | | | | | | | | | | | | | | | ]; cbn; intuition discriminate.
Qed.

Definition shown (e : expr) : Prop :=
  G (fst (show e)) (snd (show e)) e /\ 1 <= fst (show e) <= 11 /\
  (forall x, snd (show e) = [TVar x] -> fst (show e) = 11).
Lemma fit_G p e : shown e -> 1 <= p <= 11 -> G p (fit p (show e)) e.
Proof.
  intros (D & R & N) P. unfold fit. destruct (Nat.leb_spec p (fst (show e))).
  - eapply G_up; eauto.
  - apply (G_up p 11); [lia|]. apply G_paren; [apply (G_up 1 (fst (show e))); [lia|exact D]|].
    intros x X. apply N in X. lia.
Qed.
Lemma fit_notvar p e x : shown e -> p <= 9 -> fit p (show e) = [TVar x] -> snd (show e) = [TVar x].
Proof.
  intros _ P. unfold fit. destruct (p <=? fst (show e)); [auto|]. discriminate.
Qed.
Lemma two_not_var (a b : list tok) t x : a <> [] -> a ++ t :: b <> [TVar x].
Proof.
  intros N H. destruct a as [|y [|z a]]; [congruence| |]; cbn in H; injection H as _ H.
  - discriminate.
  - discriminate.
Qed.
Lemma show_join l : l <> [] -> (forall a, In a l -> shown a) -> GArgs (join (map (fun a => snd (show a)) l)) l.
Proof.
  induction l as [|a l IH]; intros N H; [congruence|].
  destruct (H a (or_introl eq_refl)) as (D & R & _).
  assert (D1 : G 1 (snd (show a)) a) by (eapply G_up; [|exact D]; lia).
  destruct l as [|b l]; [now constructor|].
  change (join (map (fun a0 => snd (show a0)) (a :: b :: l)))
    with (snd (show a) ++ TComma :: join (map (fun a0 => snd (show a0)) (b :: l))).
  apply GA_more; [exact D1|]. apply IH; [discriminate|]. intros c Hc. apply H. now right.
Qed.
Lemma not_ends (b : bool) ts : ends_tryb ts = b -> b = false -> ~ ends_in_try ts.
Proof. intros E F H. apply ends_tryb_spec in H. congruence. Qed.
Lemma paren_not_try ts : ~ ends_in_try (paren ts).
Proof. intros H. unfold paren in H. change (TLparen :: ts ++ [TRparen]) with ((TLparen :: ts) ++ [TRparen]) in H. apply ends_last in H. discriminate. Qed.

Lemma show_ok : forall n e, esize e <= n -> in_fragment e -> shown e.
Proof.
  induction n as [|n IH]; intros e S1 F.
  { destruct e; cbn in S1; lia. }
  destruct F; cbn [esize] in S1.
  - unfold shown. cbn. splits; try lia. constructor.
  - unfold shown. cbn. splits; try lia. constructor.
  - assert (X := IH e ltac:(lia) F). unfold shown. cbn [show fst snd]. splits; try lia.
    + destruct u; apply G_prefix; try constructor; apply fit_G; auto; lia.
    + discriminate.
  - assert (X := IH e ltac:(lia) F). pose proof (fit_G 10 e X ltac:(lia)) as D.
    unfold shown. cbn [show fst snd]. splits; try lia.
    + destruct i; constructor; exact D.
    + intros x E. exfalso. eapply two_not_var; [|exact E]. eapply (proj1 G_nonempty); eauto.
  - assert (X := IH e ltac:(lia) F). pose proof (fit_G 9 e X ltac:(lia)) as D.
    unfold shown. cbn [show fst snd]. splits; try lia; [|discriminate].
    assert (RP : forall m, repeat (TOp OMul false) m = map (TOp OMul) (repeat false m)) by (induction m as [|m IHm]; [reflexivity|]; cbn [repeat map]; now rewrite IHm).
    rewrite RP. rewrite <- (repeat_length false k) at 2.
    destruct (cast_startb (fit 9 (show e))) eqn:C.
    + apply G_cast; [exact D|]. now apply cast_startb_spec.
    + apply G_cast; [|exact I]. apply (G_up 9 11); [lia|]. apply G_paren; [eapply G_up; [|exact D]; lia|].
      intros y E. rewrite E in C. discriminate.
  - assert (X1 := IH l ltac:(lia) F1). assert (X2 := IH r ltac:(lia) F2).
    pose proof (bin_token_infix o) as BI. destruct (bin_token o) as [p t] eqn:BT. cbn [fst snd] in BI.
    destruct (infix_facts _ _ _ BI) as (_ & _ & _ & R & _).
    assert (D1 := fit_G p l X1 ltac:(lia)). assert (D2 := fit_G (S p) r X2 ltac:(lia)).
    unfold shown. cbn [show]. rewrite BT. cbn [fst snd]. splits; try lia.
    + destruct (ends_tryb (fit p (show l)) && operand_startb [t]) eqn:B.
      * apply Bool.andb_true_iff in B. destruct B as [B1 B2]. apply (G_infix p t (EBin o)); auto.
        -- apply (G_up p 11); [lia|]. apply G_paren; [eapply G_up; [|exact D1]; lia|].
           intros x E. rewrite E in B1. discriminate.
        -- intros Y. now apply paren_not_try in Y.
      * apply (G_infix p t (EBin o)); auto. intros Y Z. apply ends_tryb_spec in Y. apply operand_startb_spec in Z.
        rewrite Y, Z in B. discriminate.
    + intros x E. exfalso. eapply two_not_var; [|exact E].
      destruct (ends_tryb (fit p (show l)) && operand_startb [t]); [discriminate|]. eapply (proj1 G_nonempty); eauto.
  - assert (X1 := IH c ltac:(lia) F1). assert (X2 := IH a ltac:(lia) F2). assert (X3 := IH b ltac:(lia) F3).
    pose proof (fit_G 3 c X1 ltac:(lia)) as D1. pose proof (fit_G 2 b X3 ltac:(lia)) as D3.
    destruct X2 as (D2 & R2 & N2). assert (D2' : G 1 (snd (show a)) a) by (eapply G_up; [|exact D2]; lia).
    unfold shown. cbn [show fst snd]. splits; try lia.
    + destruct (operand_startb (snd (show a))) eqn:O.
      * apply G_ternary; auto. now apply operand_startb_spec.
      * apply G_ternary; auto; [|exact I]. apply (G_up 1 11); [lia|]. apply G_paren; auto.
        intros x E. rewrite E in O. discriminate.
    + intros x E. exfalso. eapply two_not_var; [|exact E]. eapply (proj1 G_nonempty); eauto.
  - assert (X := IH e ltac:(lia) F). pose proof (fit_G 10 e X ltac:(lia)) as D.
    unfold shown. cbn [show fst snd]. splits; try lia.
    + now apply G_try.
    + intros x E. exfalso. eapply two_not_var; [|exact E]. eapply (proj1 G_nonempty); eauto.
  - assert (X := IH f ltac:(lia) F). pose proof (fit_G 10 f X ltac:(lia)) as D.
    assert (XL : forall a, In a l -> shown a).
    { intros a Ha. apply IH.
      - apply esize_in in Ha. lia.
      - rewrite Forall_forall in H. auto. }
    set (tf := if ends_tryb (fit 10 (show f)) then paren (fit 10 (show f)) else fit 10 (show f)).
    assert (T : G 10 tf f /\ ~ ends_in_try tf).
    { unfold tf. destruct (ends_tryb (fit 10 (show f))) eqn:B.
      - split; [|apply paren_not_try]. apply (G_up 10 11); [lia|]. apply G_paren; [eapply G_up; [|exact D]; lia|].
        intros x E. rewrite E in B. discriminate.
      - split; [exact D|]. eapply not_ends; eauto. }
    destruct T as [T1 T2]. unfold shown. cbn [show fst snd]. fold tf. splits; try lia.
    + destruct l as [|a l].
      * now apply G_call0.
      * apply G_call; auto. apply show_join; [discriminate|auto].
    + intros x E. exfalso. eapply two_not_var; [|exact E]. eapply (proj1 G_nonempty); eauto.
  - assert (X1 := IH a ltac:(lia) F1). assert (X2 := IH i ltac:(lia) F2).
    pose proof (fit_G 10 a X1 ltac:(lia)) as D. destruct X2 as (D2 & R2 & _).
    unfold shown. cbn [show fst snd]. splits; try lia.
    + apply G_index; auto. eapply G_up; [|exact D2]; lia.
    + intros x E. exfalso. eapply two_not_var; [|exact E]. eapply (proj1 G_nonempty); eauto.
  - assert (X := IH e ltac:(lia) F). pose proof (fit_G 10 e X ltac:(lia)) as D.
    unfold shown. cbn [show fst snd]. splits; try lia.
    + now apply G_member.
    + intros x E. exfalso. eapply two_not_var; [|exact E]. eapply (proj1 G_nonempty); eauto.
Qed.

(** Printing a tree with the necessary parentheses and parsing it gives the tree back *)
Theorem C30_round_trip_partial type_list e :
  in_fragment e -> plain type_list (snd (show e)) ->
  parse_expression type_list (snd (show e)) = Got (e, []).
Proof.
  intros F P. destruct (show_ok (esize e) e (Nat.le_refl _) F) as (D & R & _).
  pose proof (C30_precedence_partial type_list (snd (show e)) [] e) as T. rewrite app_nil_r in T.
  apply T; auto; [|exact I]. eapply G_up; [|exact D]. lia.
Qed.

(** No token sequence has two readings *)
Lemma G_arrows : (forall p ts e, G p ts e -> ~ In TArrow ts /\ ~ In TFatArrow ts) /\
  (forall ts l, GArgs ts l -> ~ In TArrow ts /\ ~ In TFatArrow ts).
Proof.
  assert (A : forall t (a b : list tok), ~ In t a -> ~ In t b -> ~ In t (a ++ b))
    by (intros t a b X Y Z; apply in_app_or in Z; tauto).
  assert (B : forall t u (b : list tok), u <> t -> ~ In t b -> ~ In t (u :: b)).
  { intros t u b X Y [Z|Z]; [congruence|auto]. }
  assert (C : forall t : tok, ~ In t []) by (intros t []).
  assert (I1 : forall p t mk, infix p t mk -> t <> TArrow /\ t <> TFatArrow)
    by (intros p t mk H; destruct H; split; discriminate).
  apply (GG_ind (fun p ts e _ => ~ In TArrow ts /\ ~ In TFatArrow ts) (fun ts l _ => ~ In TArrow ts /\ ~ In TFatArrow ts)).
  all: intros; repeat match goal with H : _ /\ _ |- _ => destruct H end; auto.
  all: try (split; repeat (apply A || apply B); auto; discriminate).
  - destruct o as [-> | [nl ->]]; destruct o0 as [[x ->] | [n ->]];
      split; repeat (apply A || apply B); auto; discriminate.
  - assert (M : forall t, (forall nl, TOp OMul nl <> t) -> ~ In t (map (TOp OMul) stars)).
    { intros t X Y. apply in_map_iff in Y. destruct Y as (nl & Y & _). now elim (X nl). }
    split; repeat (apply A || apply B || apply M); auto; discriminate.
  - destruct (I1 _ _ _ i). split; repeat (apply A || apply B); auto.
Qed.
Theorem C30_unambiguous ts e1 e2 : G 1 ts e1 -> G 1 ts e2 -> e1 = e2.
Proof.
  intros D1 D2.
  assert (P : plain (fun _ => false) (ts ++ [])).
  { rewrite app_nil_r. destruct (proj1 G_arrows _ _ _ D1). now splits. }
  pose proof (C30_precedence_partial _ _ [] _ D1 I P) as E1.
  pose proof (C30_precedence_partial _ _ [] _ D2 I P) as E2. congruence.
Qed.

(** A concrete expression: a = b + c * -d - e ? f(x, y)[i].g : h  with the tree it has *)
Example C30_case :
  let v := EVar in
  let e := EBin BAssign (v 1%N)
     (ETern (EBin BSub (EBin BAdd (v 2%N) (EBin BMul (v 3%N) (EUn UNeg (v 4%N)))) (v 5%N))
            (EMember (TOp ODot false) (EIndex (ECall (v 6%N) [v 7%N; v 8%N]) (v 9%N)) (TVar 10%N)) (v 11%N)) in
  let o k := TOp k false in
  let ts := [TVar 1%N; o OAssign; TVar 2%N; o OAdd; TVar 3%N; o OMul; o OSub; TVar 4%N; o OSub; TVar 5%N; TQ;
             TVar 6%N; TLparen; TVar 7%N; TComma; TVar 8%N; TRparen; TLbracket; TVar 9%N; TRbracket; o ODot; TVar 10%N;
             TColon; TVar 11%N] in
  in_fragment e /\ snd (show e) = ts /\ plain (fun _ => false) ts /\ parse_expression (fun _ => false) ts = Got (e, []).
Proof.
  cbn zeta. splits.
  - apply F_bin; [constructor|]. apply F_tern; [repeat constructor| |constructor].
    apply F_member; [repeat constructor|right; now eexists|left; now eexists].
  - reflexivity.
  - unfold plain. splits; [| |reflexivity]; cbn; intuition discriminate.
  - reflexivity.
Qed.
(** Parentheses where they are needed, and only there *)
Example C30_case_parens :
  let v := EVar in let o k := TOp k false in
  snd (show (EBin BMul (EBin BAdd (v 1%N) (v 2%N)) (EBin BSub (v 3%N) (EBin BSub (v 4%N) (v 5%N))))) =
    [TLparen; TVar 1%N; o OAdd; TVar 2%N; TRparen; o OMul; TLparen; TVar 3%N; o OSub; TLparen; TVar 4%N; o OSub; TVar 5%N; TRparen; TRparen] /\
  snd (show (EBin BSub (EBin BSub (v 3%N) (v 4%N)) (v 5%N))) = [TVar 3%N; o OSub; TVar 4%N; o OSub; TVar 5%N].
Proof. split; reflexivity. Qed.

(** * What the parser gets wrong *)

(** A parenthesised name before "*", "&" or "(" is taken for a type: (a) * b is the
    cast of *b to a, (a) & b the cast of &b, (f)(x) the cast of x. *)
Theorem C30_paren_name_refuted type_list a b :
  parse_expression type_list [TLparen; TVar a; TRparen; TOp OMul false; TVar b] = Got (ECast a 0 (EUn UDeref (EVar b)), []) /\
  parse_expression type_list [TLparen; TVar a; TRparen; TOp OAnd false; TVar b] = Got (ECast a 0 (EUn UAddr (EVar b)), []) /\
  (forall x, parse_expression type_list [TLparen; TVar a; TRparen; TLparen; TInt x; TRparen] = Got (ECast a 0 (EInt x), [])).
Proof. splits; reflexivity. Qed.

(** A cast of a negated or complemented operand is taken for a subtraction or rejected *)
Theorem C30_cast_minus_refuted type_list t x :
  parse_expression type_list [TLparen; TVar t; TRparen; TOp OSub false; TVar x] = Got (EBin BSub (EVar t) (EVar x), []) /\
  parse_expression type_list [TLparen; TVar t; TRparen; TOp OTilde false; TVar x] = Got (EVar t, [TOp OTilde false; TVar x]).
Proof. splits; reflexivity. Qed.

(** x? - y is read as the beginning of a conditional and rejected, although "?" binds
    tighter than "-" *)
Theorem C30_try_refuted type_list x y :
  parse_expression type_list [TVar x; TQ; TOp OSub false; TVar y] = Err /\
  parse_expression type_list [TVar x; TQ; TOp OAdd false; TVar y] = Got (EBin BAdd (ETry (EVar x)) (EVar y), []).
Proof. splits; reflexivity. Qed.

(** p->x on a plain variable is taken for a lambda *)
Theorem C30_arrow_refuted type_list p x :
  parse_expression type_list [TVar p; TArrow; TVar x] = Other /\
  parse_expression type_list [TVar p; TLbracket; TInt 0; TRbracket; TArrow; TVar x] =
    Got (EMember TArrow (EIndex (EVar p) (EInt 0)) (TVar x), []).
Proof. splits; reflexivity. Qed.

(** A sum continued on the next line with "+" ends at the line break: the rest becomes
    the next statement.  A product continued with "/" does not. *)
Theorem C30_newline_refuted type_list a b :
  parse_expression type_list [TVar a; TOp OAdd true; TVar b] = Got (EVar a, [TOp OAdd true; TVar b]) /\
  parse_expression type_list [TVar a; TOp ODiv true; TVar b] = Got (EBin BDiv (EVar a) (EVar b), []).
Proof. splits; reflexivity. Qed.

(** Assignments group to the left, so a chained assignment assigns to an assignment *)
Theorem C30_assign_chain type_list a b c :
  parse_expression type_list [TVar a; TOp OAssign false; TVar b; TOp OAssign false; TVar c] =
  Got (EBin BAssign (EBin BAssign (EVar a) (EVar b)) (EVar c), []).
Proof. reflexivity. Qed.

(** * C55: compound assignment evaluates its target once *)

(** The number of increments, decrements and calls written in a tree *)
Fixpoint effects (e : expr) : nat :=
  match e with
  | EInt _ | EVar _ => 0
  | EUn u e => match u with UInc | UDec => 1 | _ => 0 end + effects e
  | EPost _ e => S (effects e)
  | ECast _ _ e | ETry e | EMember _ e _ => effects e
  | EBin _ l r | EIndex l r => effects l + effects r
  | ETern c a b => effects c + effects a + effects b
  | ECall f l => S (effects f + fold_right (fun a s => effects a + s) 0 l)
  end.
Definition is_compound (t : tok) : Prop :=
  t = TQQEq \/ exists o nl, t = TOp o nl /\ In o [OAddEq; OSubEq; OMulEq; ODivEq; ORemEq; OOrEq; OAndEq; OXorEq; OShlEq; OShrEq].

(** For every target [l] and value [r] of the grammar: the tree of "l op= r" contains
    every side effect of the target twice *)
Theorem C55_compound_refuted type_list t tl l tr r rest :
  is_compound t -> G 1 tl l -> ~ ends_in_try tl -> G 2 tr r -> closed rest -> plain type_list (tl ++ t :: tr ++ rest) ->
  exists e, parse_expression type_list (tl ++ t :: tr ++ rest) = Got (e, rest) /\
    effects e = 2 * effects l + effects r.
Proof.
  intros IC DL NT DR CL P.
  assert (X : exists o, infix 1 t (fun l r => EBin BAssign l (EBin o l r))).
  { destruct IC as [-> | (o & nl & -> & HI)]; [eexists; constructor|].
    cbn in HI. repeat (destruct HI as [<- | HI]; [eexists; constructor|]). destruct HI. }
  destruct X as [o X].
  assert (D : G 1 (tl ++ t :: tr) (EBin BAssign l (EBin o l r))).
  { apply (G_infix 1 t (fun l r => EBin BAssign l (EBin o l r))); auto. }
  exists (EBin BAssign l (EBin o l r)). split.
  - assert (EQ : tl ++ t :: tr ++ rest = (tl ++ t :: tr) ++ rest) by (now rewrite <- app_assoc).
    rewrite EQ in *. now apply C30_precedence_partial.
  - cbn [effects]. lia.
Qed.
(** a[i++] += 1 increments i twice *)
Example C55_case type_list a i :
  parse_expression type_list [TVar a; TLbracket; TVar i; TOp OInc false; TRbracket; TOp OAddEq false; TInt 1] =
  Got (EBin BAssign (EIndex (EVar a) (EPost true (EVar i))) (EBin BAdd (EIndex (EVar a) (EPost true (EVar i))) (EInt 1)), []).
Proof. reflexivity. Qed.

Print Assumptions C30_total.
Print Assumptions C30_precedence_partial.
Print Assumptions C30_round_trip_partial.
Print Assumptions C30_unambiguous.
Print Assumptions C55_compound_refuted.

Print Assumptions C30_line_partial.
