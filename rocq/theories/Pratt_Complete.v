(** The parser follows the grammar: completeness of [parse] for [G]. *)
From Verif Require Import Common Pratt_Model Pratt_Spec Pratt_Proofs.
Local Open Scope nat_scope.

Section Complete.
Variable type_list : list tok -> bool.
Notation parse := (parse type_list).
Notation primary := (primary type_list).
Notation suffixes := (suffixes type_list).
Notation arguments := (arguments type_list).
Notation arguments1 := (arguments1 type_list).
Notation loop := (loop type_list).

Definition Ev {A} (P : nat -> out A) (v : A) : Prop := exists f0, forall f, f0 <= f -> P f = Got v.
Lemma ev_intro {A} (P : nat -> out A) v f :
  (forall g, f <= g -> le_out (P f) (P g)) -> P f = Got v -> Ev P v.
Proof. intros M H. exists f. intros g L. eapply le_got; eauto. Qed.
Lemma ev_loop f min e ts v : loop f min e ts = Got v -> Ev (fun f => loop f min e ts) v.
Proof. intros H. apply (ev_intro _ _ f); auto. intros g L. apply (mono type_list f g L). Qed.
Lemma ev_parse f min ts v : parse f min ts = Got v -> Ev (fun f => parse f min ts) v.
Proof. intros H. apply (ev_intro _ _ f); auto. intros g L. apply (mono type_list f g L). Qed.
Lemma ev_arguments f ts v : arguments f ts = Got v -> Ev (fun f => arguments f ts) v.
Proof. intros H. apply (ev_intro _ _ f); auto. intros g L. apply (mono type_list f g L). Qed.

Ltac evs :=
  repeat match goal with H : Ev _ _ |- _ => let f := fresh "f" in destruct H as [f H] end.
Ltac sumf l :=
  match goal with
  | H : (forall f : nat, ?n <= f -> _) |- _ => lazymatch l with context [n] => fail | _ => sumf constr:(n + l) end
  | _ => l
  end.
Ltac fuel := let n := sumf constr:(0) in exists (S n); intros [|?f] ?L; [lia|].

Ltac prec_lia := cbn [get_token_precedence];
  unfold PREC_NONE, PREC_ASSIGNMENT, PREC_TERNARY, PREC_OR, PREC_AND, PREC_EQUALITY, PREC_COMPARISON,
    PREC_TERM, PREC_FACTOR, PREC_UNARY, PREC_CALL in *; lia.

(** * The loop *)
Definition eff (ts : list tok) : nat :=
  match ts with
  | [] => 0
  | t :: r =>
    if newline_break t then 0
    else match loop_kind_of t with
    | LInc | LDec => 100
    | LQ => if starts_ternary r then 2 else 10
    | _ => get_token_precedence t
    end
  end.

Lemma loop_stop q e rest : q <= 10 -> eff rest < Nat.max q 1 -> Ev (fun f => loop f q e rest) (e, rest).
Proof.
  intros Q H. exists 1. intros [|f] L; [lia|]. rewrite loop_S. unfold loop_body.
  destruct rest as [|t r]; [reflexivity|]. cbn [eff] in H.
  destruct (newline_break t); [reflexivity|].
  assert (S1 : get_token_precedence t < Nat.max q 1 -> stop q t = true).
  { intros X. unfold stop, PREC_NONE. destruct (Nat.eqb_spec (get_token_precedence t) 0); [reflexivity|].
    apply Nat.ltb_lt. lia. }
  destruct (loop_kind_of t) eqn:K; try (rewrite S1 by lia; reflexivity); try lia.
  destruct (stop q t); [reflexivity|].
  destruct (starts_ternary r).
  - assert (X : PREC_TERNARY <? q = true) by (apply Nat.ltb_lt; unfold PREC_TERNARY; lia). now rewrite X.
  - lia.
Qed.

Lemma not_stop min t : min <= 9 -> get_token_precedence t >= 1 -> min <= get_token_precedence t -> stop min t = false.
Proof.
  intros M P Q. unfold stop, PREC_NONE. apply Bool.orb_false_iff. split.
  - apply Nat.eqb_neq. lia.
  - apply Nat.ltb_ge. lia.
Qed.

(** A primary swallows the calls and indexings that the loop would *)
Lemma split_loop min v : min <= 9 -> forall f e rest, loop f min e rest = Got v ->
  exists e' r', Ev (fun f => suffixes f e rest) (e', r') /\ Ev (fun f => loop f min e' r') v.
Proof.
  intros M. induction f as [|f IH]; intros e rest H; [discriminate|].
  assert (D : Ev (fun f => suffixes f e rest) (e, rest) ->
      exists e' r', Ev (fun f => suffixes f e rest) (e', r') /\ Ev (fun f => loop f min e' r') v).
  { intros S1. exists e, rest. split; [exact S1|]. eapply ev_loop; eauto. }
  destruct rest as [|t r].
  { apply D. fuel. now rewrite suffixes_S. }
  destruct t; try (apply D; fuel; now rewrite suffixes_S).
  - rewrite loop_S in H. unfold loop_body in H. cbn [newline_break loop_kind_of] in H.
    rewrite not_stop in H by prec_lia.
    destruct (arguments f r) as [[a r1]| | |] eqn:E; try discriminate. cbn [obind] in H.
    apply IH in H. destruct H as (e' & r' & S1 & L1). exists e', r'. split; [|exact L1].
    apply ev_arguments in E. evs. fuel. rewrite suffixes_S. unfold suffixes_body.
    rewrite E by lia. cbn [obind]. apply S1. lia.
  - rewrite loop_S in H. unfold loop_body in H. cbn [newline_break loop_kind_of] in H.
    rewrite not_stop in H by prec_lia.
    destruct (dotdot_next r); [discriminate|].
    destruct (parse f PREC_NONE r) as [[a r1]| | |] eqn:E; try discriminate. cbn [obind] in H.
    destruct r1 as [|t1 r2]; [discriminate|]. destruct t1; try discriminate.
    apply IH in H. destruct H as (e' & r' & S1 & L1). exists e', r'. split; [|exact L1].
    apply ev_parse in E. evs. fuel. rewrite suffixes_S. unfold suffixes_body.
    rewrite E by lia. cbn [obind]. apply S1. lia.
Qed.

(** * What the grammar's tokens look like *)
Definition next_ok (b : list tok) : Prop :=
  match b with
  | TOp ONot _ :: _ | TDcolon :: _ | TLbrace :: _ => False
  | _ => True
  end.
Fixpoint adj (ts : list tok) : Prop :=
  match ts with
  | [] => True
  | t :: r => match t with TVar _ => next_ok r | _ => True end /\ adj r
  end.
Lemma adj_app a t b : adj a -> next_ok [t] -> adj (t :: b) -> adj (a ++ t :: b).
Proof.
  intros A O B. induction a as [|x a IH]; [exact B|]. cbn [app]. destruct A as [A1 A2].
  split; [|now apply IH]. destruct x; auto. destruct a as [|y a]; [|exact A1].
  cbn [app]. destruct t as [ | |[] ?| | | | | | | | | | | | | | | | | | | | | | | ]; exact O.
Qed.
Lemma adj_snoc a t : adj a -> next_ok [t] -> adj (a ++ [t]).
Proof. intros A O. apply adj_app; auto. split; [|exact I]. now destruct t. Qed.
Lemma adj_tail a b : adj (a ++ b) -> adj b.
Proof. induction a; [auto|]. intros [_ H]. auto. Qed.

Scheme G_mut := Induction for G Sort Prop with GArgs_mut := Induction for GArgs Sort Prop.
Combined Scheme GG_ind from G_mut, GArgs_mut.

Lemma infix_next p t mk : infix p t mk -> next_ok [t].
Proof. intros H; destruct H; exact I. Qed.
Lemma adj_cons t r : (forall x, t <> TVar x) -> adj r -> adj (t :: r).
Proof. intros H A. split; [destruct t; auto; now elim (H x)|exact A]. Qed.
Lemma infix_notvar p t mk x : infix p t mk -> t <> TVar x.
Proof. intros H; destruct H; discriminate. Qed.
Lemma G_adj : (forall p ts e, G p ts e -> adj ts) /\ (forall ts l, GArgs ts l -> adj ts).
Proof.
  apply (GG_ind (fun p ts e _ => adj ts) (fun ts l _ => adj ts)); intros; auto.
  - cbn; auto.
  - cbn; auto.
  - apply adj_cons; [discriminate|]. apply adj_snoc; auto. exact I.
  - apply adj_app; auto; cbn; auto.
  - apply adj_app; auto; [exact I|]. apply adj_cons; [discriminate|]. apply adj_snoc; auto. exact I.
  - apply adj_app; auto; [exact I|]. apply adj_cons; [discriminate|]. apply adj_snoc; auto. exact I.
  - destruct o as [-> | [nl ->]]; destruct o0 as [[x ->] | [n ->]]; apply adj_app; cbn; auto.
  - apply adj_snoc; auto. exact I.
  - apply adj_snoc; auto. exact I.
  - apply adj_snoc; auto. exact I.
  - apply adj_cons; [discriminate|auto].
  - apply adj_cons; [discriminate|]. cbn [adj].
    assert (A : adj (map (TOp OMul) stars ++ TRparen :: te)).
    { clear - H. induction stars; cbn [map app]; (apply adj_cons; [discriminate|]); auto. }
    split; [|exact A]. destruct stars; exact I.
  - apply adj_app; auto; [eapply infix_next; eauto|]. apply adj_cons; auto. intros x; eapply infix_notvar; eauto.
  - apply adj_app; auto; [exact I|]. apply adj_cons; [discriminate|].
    apply adj_app; auto; [exact I|]. apply adj_cons; [discriminate|auto].
  - apply adj_app; auto; [exact I|]. apply adj_cons; [discriminate|auto].
Qed.

Lemma G_nonempty : (forall p ts e, G p ts e -> ts <> []) /\ (forall ts l, GArgs ts l -> ts <> []).
Proof.
  apply (GG_ind (fun p ts e _ => ts <> []) (fun ts l _ => ts <> [])); intros; auto; try discriminate;
    try (intros X; apply app_eq_nil in X; destruct X; congruence).
Qed.

(** After any number of stars something else than ")" follows *)
Fixpoint strip (ts : list tok) : list tok :=
  match ts with TOp OMul _ :: r => strip r | _ => ts end.
Definition goes_on (ts : list tok) : Prop :=
  match strip ts with [] => False | t :: _ => ~ In t [TRparen; TRbracket; TColon; TComma; TDotdot] end.
Lemma strip_app a b : goes_on a -> strip (a ++ b) = strip a ++ b.
Proof.
  unfold goes_on. induction a as [|t a IH]; [intros []|].
  destruct t as [ | |[] ?| | | | | | | | | | | | | | | | | | | | | | | ]; cbn [strip app]; auto.
Qed.
Lemma goes_on_app a b : goes_on a -> goes_on (a ++ b).
Proof.
  intros H. unfold goes_on. rewrite strip_app by auto. unfold goes_on in H.
  destruct (strip a); [destruct H|exact H].
Qed.
Ltac not_in := cbn [In]; intros X; repeat (destruct X as [X|X]; [discriminate X|]); destruct X.
Lemma goes_on_other t r : (forall nl, t <> TOp OMul nl) -> ~ In t [TRparen; TRbracket; TColon; TComma; TDotdot] -> goes_on (t :: r).
Proof.
  intros H N. unfold goes_on.
  destruct t as [ | |[] ?| | | | | | | | | | | | | | | | | | | | | | | ]; cbn [strip]; auto. now elim (H nl).
Qed.
Lemma goes_on_op o nl r : goes_on r -> goes_on (TOp o nl :: r).
Proof.
  intros H. destruct o; try (apply goes_on_other; [discriminate|not_in]). exact H.
Qed.
Lemma G_goes_on : (forall p ts e, G p ts e -> goes_on ts) /\ (forall ts l, GArgs ts l -> goes_on ts).
Proof.
  apply (GG_ind (fun p ts e _ => goes_on ts) (fun ts l _ => goes_on ts)); intros; auto;
    try (now apply goes_on_app); try (apply goes_on_other; [discriminate|not_in]).
  now apply goes_on_op.
Qed.

Definition var_head (ts : list tok) : Prop :=
  match ts with
  | TVar _ :: r => r = [] \/ goes_on r
  | _ => True
  end.
Lemma var_head_app a b : a <> [] -> var_head a -> goes_on b -> var_head (a ++ b).
Proof.
  intros N H B. destruct a as [|t a]; [congruence|]. cbn [app var_head]. destruct t; auto.
  right. destruct H as [-> | H]; [exact B|]. now apply goes_on_app.
Qed.
Lemma infix_goes_on p t mk r : infix p t mk -> goes_on r -> goes_on (t :: r).
Proof. intros H R; destruct H; try (apply goes_on_op; exact R); (apply goes_on_other; [discriminate|not_in]). Qed.
Lemma G_var_head : (forall p ts e, G p ts e -> var_head ts) /\ (forall ts l, GArgs ts l -> True).
Proof.
  apply (GG_ind (fun p ts e _ => var_head ts) (fun ts l _ => True)); intros; auto; try exact I;
    try (apply var_head_app; auto; [eapply (proj1 G_nonempty); eauto|];
         try (apply goes_on_other; [discriminate|not_in])).
  - left; reflexivity.
  - destruct o as [-> | [nl ->]]; (apply goes_on_other; [discriminate|not_in]).
  - eapply infix_goes_on; eauto. eapply (proj1 G_goes_on); eauto.
Qed.

(** * Clean input.  [tail_len]: the number of tokens after the whole expression. *)
Variable tail_len : nat.
Fixpoint adjk (ts : list tok) : Prop :=
  match ts with
  | [] => True
  | t :: r => match t with TVar _ => tail_len <= length r -> next_ok r | _ => True end /\ adjk r
  end.
Lemma adjk_tail a b : adjk (a ++ b) -> adjk b.
Proof. induction a; [auto|]. intros [_ H]. auto. Qed.
Definition clean (ts : list tok) : Prop :=
  ~ In TArrow ts /\ ~ In TFatArrow ts /\ (forall a b, ts = a ++ TLangle :: b -> type_list b = false) /\ adjk ts.
Lemma clean_tail a b : clean (a ++ b) -> clean b.
Proof.
  intros (C1 & C2 & C3 & C4). unfold clean. splits.
  - intros X. apply C1, in_or_app. now right.
  - intros X. apply C2, in_or_app. now right.
  - intros c d ->. apply (C3 (a ++ c)). now rewrite <- app_assoc.
  - eapply adjk_tail; eauto.
Qed.
Lemma clean_cons t b : clean (t :: b) -> clean b.
Proof. apply (clean_tail [t]). Qed.

Lemma arrow_scan_no ts : ~ In TArrow ts -> ~ In TFatArrow ts -> arrow_scan ts = false.
Proof.
  induction ts as [|t ts IH]; intros A B; [reflexivity|].
  assert (A' : ~ In TArrow ts) by (intros X; apply A; now right).
  assert (B' : ~ In TFatArrow ts) by (intros X; apply B; now right).
  destruct t as [ | |[] ?| | | | | | | | | | | | | | | | | | | | | | | ]; cbn [arrow_scan]; auto.
  - elim A; now left.
  - elim B; now left.
Qed.
Lemma arrow_next_no ts : ~ In TArrow ts -> ~ In TFatArrow ts -> arrow_next ts = false.
Proof.
  destruct ts as [|t ts]; intros A B; [reflexivity|].
  destruct t; try reflexivity; [elim A | elim B]; now left.
Qed.
Lemma lambda_look_no n : forall ts, length ts <= n -> ~ In TArrow ts -> ~ In TFatArrow ts ->
  forall first skip, lambda_look first skip ts = false.
Proof.
  induction n as [|n IH]; intros ts L A B first skip.
  { destruct ts; [reflexivity|cbn in L; lia]. }
  destruct ts as [|t ts]; [reflexivity|]. cbn in L.
  assert (A' : ~ In TArrow ts) by (intros X; apply A; now right).
  assert (B' : ~ In TFatArrow ts) by (intros X; apply B; now right).
  assert (N := arrow_next_no ts A' B').
  cbn [lambda_look]. destruct skip.
  { destruct t; try (apply IH; auto; lia). exact N. }
  destruct t; try reflexivity.
  - destruct ts as [|t2 ts]; [reflexivity|]. cbn in L.
    assert (A2 : ~ In TArrow ts) by (intros X; apply A'; now right).
    assert (B2 : ~ In TFatArrow ts) by (intros X; apply B'; now right).
    destruct t2; try reflexivity; try (apply IH; auto; lia).
    now apply arrow_next_no.
  - rewrite N. apply Bool.andb_false_r.
Qed.

Lemma clean_var x r : tail_len <= length r -> clean (TVar x :: r) -> var_other type_list r = false.
Proof.
  intros LR (C1 & C2 & C3 & C4 & _). specialize (C4 LR). destruct r as [|t r]; [reflexivity|].
  destruct t as [ | |[] ?| | | | | | | | | | | | | | | | | | | | | | | ]; cbn [var_other]; auto; try (now destruct C4).
  - apply (C3 [TVar x] r). reflexivity.
  - elim C1; now right; left.
  - elim C2; now right; left.
  - apply arrow_scan_no; intros X; [apply C1 | apply C2]; now right; right.
Qed.
Lemma clean_generic t r : clean (t :: r) -> generic_next type_list r = false.
Proof.
  intros (C1 & C2 & C3 & C4). destruct r as [|t2 r]; [reflexivity|]. destruct t2; try reflexivity.
  apply (C3 [t] r). reflexivity.
Qed.
Lemma clean_lambda r : clean r -> lambda_look true false r = false.
Proof. intros (C1 & C2 & _). eapply lambda_look_no; eauto. Qed.
Lemma clean_path r : tail_len < length r -> clean r -> path_next r = false.
Proof.
  intros LR (_ & _ & _ & A). destruct r as [|t r]; [reflexivity|]. destruct t; try reflexivity.
  destruct A as [A _]. cbn [length] in LR. specialize (A ltac:(lia)). destruct r as [|t2 r]; [reflexivity|]. destruct t2; try reflexivity. destruct A.
Qed.

Lemma goes_on_stars ts n : goes_on ts -> cast_stars ts n = None.
Proof.
  unfold goes_on. revert n. induction ts as [|t ts IH]; intros n H; [destruct H|].
  destruct t as [ | |[] ?| | | | | | | | | | | | | | | | | | | | | | | ]; cbn [cast_stars strip] in *; auto.
  elim H; cbn; auto.
Qed.
Lemma paren_cast p ts e rest : G p ts e -> (forall x, ts <> [TVar x]) -> cast_look (ts ++ TRparen :: rest) = None.
Proof.
  intros D N. pose proof (proj1 G_var_head _ _ _ D) as V. destruct ts as [|t ts].
  - now elim (proj1 G_nonempty _ _ _ D).
  - destruct t; try reflexivity. cbn [app cast_look]. destruct V as [-> | V]; [now elim (N x)|].
    rewrite goes_on_stars; [reflexivity|]. now apply goes_on_app.
Qed.
Lemma cast_cast x stars te : cast_operand_start te ->
  cast_look (TVar x :: map (TOp OMul) stars ++ TRparen :: te) = Some (x, length stars, te).
Proof.
  intros H. cbn [cast_look].
  assert (A : forall n, cast_stars (map (TOp OMul) stars ++ TRparen :: te) n = Some (n + length stars, te)).
  { induction stars as [|s l IH]; intros n; cbn [map app cast_stars length].
    - now rewrite Nat.add_0_r.
    - rewrite IH. now rewrite Nat.add_succ_r. }
  rewrite A. cbn [Nat.add].
  assert (B : starts_cast_operand te = true).
  { destruct te as [|t te]; [destruct H|].
    destruct t as [ | |[] ?| | | | | | | | | | | | | | | | | | | | | | | ]; cbn in H |- *; auto; try (now destruct H);
    intuition discriminate. }
  now rewrite B.
Qed.
Lemma operand_start_ternary ts r : operand_start ts -> starts_ternary (ts ++ r) = true.
Proof.
  destruct ts as [|t ts]; [intros []|].
  destruct t as [ | |[] ?| | | | | | | | | | | | | | | | | | | | | | | ]; cbn; auto; intuition discriminate.
Qed.
Lemma no_operand_start t r : ~ operand_start [t] -> t <> TLbrace -> t <> TOther -> starts_ternary (t :: r) = false.
Proof.
  destruct t as [ | |[] ?| | | | | | | | | | | | | | | | | | | | | | | ]; cbn; intros H X Y; auto; tauto.
Qed.
Lemma named_no p ts e rest : G p ts e -> match rest with TColon :: _ => False | _ => True end -> named_arg (ts ++ rest) = false.
Proof.
  intros D N. pose proof (proj1 G_var_head _ _ _ D) as V. destruct ts as [|t ts].
  - now elim (proj1 G_nonempty _ _ _ D).
  - destruct t; try reflexivity. cbn [app named_arg]. destruct V as [-> | V].
    + destruct rest as [|t r]; [reflexivity|]. destruct t; try reflexivity. destruct N.
    + destruct ts as [|t ts]; [destruct V|]. destruct t; try reflexivity. elim V; cbn; auto.
Qed.

Lemma ends_tail a b : b <> [] -> ends_in_try (a ++ b) -> ends_in_try b.
Proof.
  intros N [us E]. destruct (exists_last N) as (b' & t & ->). rewrite app_assoc in E.
  apply app_inj_tail in E. destruct E as [_ ->]. now exists b'.
Qed.
Lemma ends_last a t : ends_in_try (a ++ [t]) -> t = TQ.
Proof. intros [us E]. apply app_inj_tail in E. apply E. Qed.

(** * Steps of the loop *)
Lemma infix_facts p t mk : infix p t mk ->
  newline_break t = false /\ get_token_precedence t = p /\
  ((loop_kind_of t = LBinary /\ forall l r, mk_binary t l r = Some (mk l r)) \/
   (loop_kind_of t = LPipe /\ forall l r, pipe l r = mk l r)) /\ 1 <= p <= 8 /\ p <> 2 /\
  t <> TLbrace /\ t <> TOther.
Proof.
  intros H; destruct H; splits; try reflexivity; try lia; try discriminate;
    first [destruct nl; reflexivity | left; split; reflexivity | right; split; reflexivity].
Qed.

Lemma L_infix p t mk min l r b r1 v : infix p t mk -> min <= p ->
  Ev (fun f => parse f (S p) r) (b, r1) -> Ev (fun f => loop f min (mk l b) r1) v ->
  Ev (fun f => loop f min l (t :: r)) v.
Proof.
  intros I0 M P1 L1. evs. fuel. rewrite loop_S. unfold loop_body.
  destruct (infix_facts _ _ _ I0) as (-> & E2 & K & R & _).
  assert (S1 : stop min t = false) by (apply not_stop; lia).
  destruct K as [[-> K] | [-> K]]; rewrite S1; rewrite E2, P1 by lia; cbn [obind].
  - rewrite K. apply L1. lia.
  - rewrite K. apply L1. lia.
Qed.
Lemma L_call min e r a r1 v : min <= 9 -> Ev (fun f => arguments f r) (a, r1) ->
  Ev (fun f => loop f min (ECall e a) r1) v -> Ev (fun f => loop f min e (TLparen :: r)) v.
Proof.
  intros M A L1. evs. fuel. rewrite loop_S. unfold loop_body. cbn [newline_break loop_kind_of].
  rewrite not_stop by prec_lia. rewrite A by lia. cbn [obind]. apply L1. lia.
Qed.
Lemma L_index min e r i r1 v : min <= 9 -> dotdot_next r = false -> Ev (fun f => parse f 0 r) (i, TRbracket :: r1) ->
  Ev (fun f => loop f min (EIndex e i) r1) v -> Ev (fun f => loop f min e (TLbracket :: r)) v.
Proof.
  intros M D A L1. evs. fuel. rewrite loop_S. unfold loop_body. cbn [newline_break loop_kind_of].
  rewrite not_stop by prec_lia. rewrite D. unfold PREC_NONE. rewrite A by lia. cbn [obind]. apply L1. lia.
Qed.
Lemma L_member min e k f r v : min <= 9 -> (k = TQDot \/ exists nl, k = TOp ODot nl) ->
  ((exists x, f = TVar x) \/ exists n, f = TInt n) -> generic_next type_list r = false ->
  Ev (fun g => loop g min (EMember k e f) r) v -> Ev (fun g => loop g min e (k :: f :: r)) v.
Proof.
  intros M K F D L1. evs. fuel. rewrite loop_S. unfold loop_body.
  assert (X : field (f :: r) = Some (f, r)) by (destruct F as [[x ->] | [n ->]]; reflexivity).
  destruct K as [-> | [nl ->]]; cbn [newline_break loop_kind_of].
  - rewrite not_stop by prec_lia. rewrite X. apply L1; lia.
  - assert (Y : newline_break (TOp ODot nl) = false) by (now destruct nl). cbn [newline_break] in Y. rewrite Y.
    rewrite not_stop by prec_lia. rewrite X, D. apply L1; lia.
Qed.
Lemma L_try min e r v : min <= 9 -> starts_ternary r = false ->
  Ev (fun f => loop f min (ETry e) r) v -> Ev (fun f => loop f min e (TQ :: r)) v.
Proof.
  intros M S1 L1. evs. fuel. rewrite loop_S. unfold loop_body. cbn [newline_break loop_kind_of].
  rewrite not_stop by prec_lia. rewrite S1.
  assert (X : PREC_CALL <? min = false) by (apply Nat.ltb_ge; unfold PREC_CALL; lia). rewrite X. apply L1. lia.
Qed.
Lemma L_post min e i nl r v : Ev (fun f => loop f min (EPost i e) r) v ->
  Ev (fun f => loop f min e (TOp (if i then OInc else ODec : opk) nl :: r)) v.
Proof.
  intros L1. evs. fuel. rewrite loop_S. unfold loop_body.
  destruct i, nl; cbn [newline_break loop_kind_of]; apply L1; lia.
Qed.
Lemma L_ternary min e r a r1 b r2 v : min <= 2 -> starts_ternary r = true ->
  Ev (fun f => parse f 0 r) (a, TColon :: r1) -> Ev (fun f => parse f 2 r1) (b, r2) ->
  Ev (fun f => loop f min (ETern e a b) r2) v -> Ev (fun f => loop f min e (TQ :: r)) v.
Proof.
  intros M S1 P1 P2 L1. evs. fuel. rewrite loop_S. unfold loop_body. cbn [newline_break loop_kind_of].
  rewrite not_stop by prec_lia. rewrite S1.
  assert (X : PREC_TERNARY <? min = false) by (apply Nat.ltb_ge; unfold PREC_TERNARY; lia). rewrite X.
  unfold PREC_NONE, PREC_TERNARY. rewrite P1 by lia. cbn [obind]. rewrite P2 by lia. cbn [obind]. apply L1. lia.
Qed.

(** An atom, then the loop *)
Lemma P_atom min t r e rest v : min <= 9 -> head_op (t :: r) = None ->
  (forall f e' r', suffixes f e rest = Got (e', r') -> exists g0, forall g, g0 <= g -> primary g (t :: r) = Got (e', r')) ->
  Ev (fun f => loop f min e rest) v -> Ev (fun f => parse f min (t :: r)) v.
Proof.
  intros M H0 HP [f L1]. destruct (split_loop min v M f e rest (L1 f (Nat.le_refl f))) as (e' & r' & [f1 S1] & L2).
  destruct (HP f1 e' r' (S1 f1 (Nat.le_refl f1))) as [g0 PG0]. evs.
  exists (S (g0 + f0)). intros [|f'] L; [lia|]. rewrite parse_S. unfold parse_body. rewrite H0, PG0 by lia.
  cbn [obind]. apply L2. lia.
Qed.

(** * The main induction *)
Definition req (p : nat) : nat := if p =? 2 then 2 else if p =? 9 then 9 else S p.
Lemma req_mono p q : p <= q -> q <= 9 -> req p <= req q.
Proof.
  intros. unfold req. destruct (Nat.eqb_spec p 2), (Nat.eqb_spec p 9), (Nat.eqb_spec q 2), (Nat.eqb_spec q 9); lia.
Qed.
Definition follow (p : nat) (ts rest : list tok) : Prop :=
  (p <= 9 -> eff rest < req p) /\ (ends_in_try ts -> starts_ternary rest = false).

Definition PG (p : nat) (ts : list tok) (e : expr) : Prop := forall rest min v, tail_len <= length rest ->
  clean (ts ++ rest) -> follow p ts rest -> min <= p -> min <= 9 ->
  Ev (fun f => loop f min e rest) v -> Ev (fun f => parse f min (ts ++ rest)) v.
Definition PA (ts : list tok) (l : list expr) : Prop := forall rest, tail_len <= length rest ->
  clean (ts ++ TRparen :: rest) -> Ev (fun f => arguments1 f (ts ++ TRparen :: rest)) (l, rest).

Lemma suffixes_mono f g e ts v : f <= g -> suffixes f e ts = Got v -> suffixes g e ts = Got v.
Proof. intros L H. destruct (mono type_list f g L) as (_ & _ & M & _). eapply le_got; eauto. Qed.

Ltac len := do 4 (cbn [length]; rewrite ?app_length, ?map_length); cbn [length]; lia.
Lemma complete : (forall p ts e, G p ts e -> PG p ts e) /\ (forall ts l, GArgs ts l -> PA ts l).
Proof.
  apply (GG_ind (fun p ts e _ => PG p ts e) (fun ts l _ => PA ts l)).
  - (* int *)
    intros n rest min v LK C F M M9 L1. cbn [app] in *. apply (P_atom min (TInt n) rest (EInt n) rest v); auto.
    intros f e' r' H. exists (S f). intros [|g] L; [lia|]. rewrite primary_S. cbn [primary_body start_of].
    eapply suffixes_mono; [|exact H]. lia.
  - (* var *)
    intros x rest min v LK C F M M9 L1. cbn [app] in *. apply (P_atom min (TVar x) rest (EVar x) rest v); auto.
    intros f e' r' H. exists (S f). intros [|g] L; [lia|]. rewrite primary_S. cbn [primary_body start_of].
    rewrite (clean_var x) by auto. eapply suffixes_mono; [|exact H]. lia.
  - (* paren *)
    intros ts e D IH N rest min v LK C F M M9 L1.
    change ((TLparen :: ts ++ [TRparen]) ++ rest) with (TLparen :: (ts ++ [TRparen]) ++ rest) in *.
    rewrite <- app_assoc in *. cbn [app] in *.
    apply (P_atom min TLparen (ts ++ TRparen :: rest) e rest v); auto.
    intros f e' r' H. apply clean_cons in C.
    assert (Q : Ev (fun f => parse f 0 (ts ++ TRparen :: rest)) (e, TRparen :: rest)).
    { apply IH; auto; try lia; try len.
      - split; [intros _; apply Nat.ltb_lt; reflexivity|reflexivity].
      - apply loop_stop; [lia|]. apply Nat.ltb_lt; reflexivity. }
    destruct Q as [f1 Q]. exists (S (f + f1)). intros [|g] L; [lia|]. rewrite primary_S. cbn [primary_body start_of].
    rewrite clean_lambda by auto. rewrite clean_path by (try assumption; len). rewrite (paren_cast _ _ _ rest D N).
    unfold PREC_NONE. rewrite Q by lia. cbn [obind]. eapply suffixes_mono; [|exact H]. lia.
  - (* call0 *)
    intros tf f D IH T rest min v LK C F M M9 L1. rewrite <- app_assoc in *. cbn [app] in *.
    apply IH; auto; try len.
    + split; [lia|]. intros X. now elim T.
    + apply (L_call min f (TRparen :: rest) [] rest v); auto. exists 1. intros [|g] L; [lia|]. reflexivity.
  - (* call *)
    intros tf f ta args D IH T DA IA rest min v LK C F M M9 L1. rewrite <- app_assoc in *. cbn [app] in *.
    rewrite <- app_assoc in *. cbn [app] in *.
    apply IH; auto; try len.
    + split; [lia|]. intros X. now elim T.
    + apply (L_call min f (ta ++ TRparen :: rest) args rest v); auto.
      apply clean_tail, clean_cons in C. specialize (IA rest LK C). evs. fuel. rewrite arguments_S.
      pose proof (proj2 G_goes_on _ _ DA) as GO. unfold arguments_body. destruct ta as [|t ta]; [destruct GO|].
      cbn [app] in *. destruct t; try (apply IA; lia). elim GO; cbn; auto.
  - (* index *)
    intros ta a ti i D IH DI II rest min v LK C F M M9 L1. rewrite <- app_assoc in *. cbn [app] in *.
    rewrite <- app_assoc in *. cbn [app] in *.
    apply IH; auto; try len.
    + split; [lia|]. reflexivity.
    + apply (L_index min a (ti ++ TRbracket :: rest) i rest v); auto.
      * pose proof (proj1 G_goes_on _ _ _ DI) as GO. destruct ti as [|t ti]; [destruct GO|].
        destruct t; try reflexivity. elim GO; cbn; auto 10.
      * apply clean_tail, clean_cons in C. apply II; auto; try lia; try len.
        -- split; [intros _; apply Nat.ltb_lt; reflexivity|reflexivity].
        -- apply loop_stop; [lia|]. apply Nat.ltb_lt; reflexivity.
  - (* member *)
    intros te e k f D IH K Fd rest min v LK C F M M9 L1. rewrite <- app_assoc in *. cbn [app] in *.
    apply IH; auto; try len.
    + split; [lia|]. intros _. destruct K as [-> | [nl ->]]; reflexivity.
    + apply L_member; auto. apply (clean_generic f). apply clean_tail, clean_cons in C. exact C.
  - (* try *)
    intros te e D IH rest min v LK C F M M9 L1. rewrite <- app_assoc in *. cbn [app] in *.
    destruct F as [_ F]. assert (X : starts_ternary rest = false) by (apply F; now exists te).
    apply IH; auto; try len.
    + split; [lia|]. reflexivity.
    + apply L_try; auto.
  - (* inc *)
    intros te e nl D IH rest min v LK C F M M9 L1. rewrite <- app_assoc in *. cbn [app] in *.
    apply IH; auto; try len.
    + split; [lia|]. reflexivity.
    + apply (L_post min e true nl rest v L1).
  - (* dec *)
    intros te e nl D IH rest min v LK C F M M9 L1. rewrite <- app_assoc in *. cbn [app] in *.
    apply IH; auto; try len.
    + split; [lia|]. reflexivity.
    + apply (L_post min e false nl rest v L1).
  - (* prefix *)
    intros o u nl te e Po D IH rest min v LK C [F1 F2] M M9 L1. cbn [app] in *.
    assert (Q : Ev (fun f => parse f 9 (te ++ rest)) (e, rest)).
    { apply IH; auto; try lia; try len.
      - eapply clean_cons; eauto.
      - split; [exact F1|]. intros X. apply F2. destruct X as [us ->]. exists (TOp o nl :: us). reflexivity.
      - apply loop_stop; [lia|]. specialize (F1 ltac:(lia)). cbn in F1 |- *. lia. }
    evs. fuel. rewrite parse_S. unfold parse_body. cbn [head_op].
    assert (X : prefix_op o = Some u) by (destruct Po; reflexivity). rewrite X. unfold PREC_UNARY.
    rewrite Q by lia. cbn [obind]. apply L1. lia.
  - (* cast *)
    intros x stars te e D IH CS rest min v LK C [F1 F2] M M9 L1.
    assert (EQ : (TLparen :: TVar x :: map (TOp OMul) stars ++ TRparen :: te) ++ rest =
                 TLparen :: TVar x :: map (TOp OMul) stars ++ TRparen :: te ++ rest).
    { cbn [app]. rewrite <- app_assoc. reflexivity. }
    rewrite EQ in *. clear EQ.
    assert (Q : Ev (fun f => parse f 9 (te ++ rest)) (e, rest)).
    { apply IH; auto; try lia; try len.
      - apply clean_cons, clean_cons, clean_tail, clean_cons in C. exact C.
      - split; [exact F1|]. intros X. apply F2. destruct X as [us ->].
        exists (TLparen :: TVar x :: map (TOp OMul) stars ++ TRparen :: us). cbn [app]. now rewrite <- app_assoc.
      - apply loop_stop; [lia|]. specialize (F1 ltac:(lia)). cbn in F1 |- *. lia. }
    apply clean_cons in C.
    evs. exists (S (S (f0 + f))). intros [|g] L; [lia|]. rewrite parse_S. unfold parse_body. cbn [head_op].
    destruct g as [|g]; [lia|]. rewrite primary_S. cbn [primary_body start_of].
    rewrite clean_lambda by auto. rewrite clean_path by (try assumption; len). rewrite cast_cast.
    + unfold PREC_UNARY. rewrite Q by lia. cbn [obind]. apply L1. lia.
    + destruct te; [destruct CS|exact CS].
  - (* infix *)
    intros p t mk tl l tr r I0 Dl IHl Dr IHr T rest min v LK C [F1 F2] M M9 L1.
    rewrite <- app_assoc in *. cbn [app] in *.
    destruct (infix_facts _ _ _ I0) as (N1 & E2 & K & R & R2 & NB & NO).
    assert (RQ : req p = S p) by (unfold req; destruct (Nat.eqb_spec p 2), (Nat.eqb_spec p 9); lia).
    specialize (F1 ltac:(lia)). rewrite RQ in F1.
    assert (NE : t :: tr <> []) by discriminate.
    assert (NT : tr <> []) by (apply (proj1 G_nonempty _ _ _ Dr)).
    apply IHl; auto; try len.
    + split.
      * intros _. rewrite RQ. cbn [eff]. rewrite N1. destruct K as [[K _] | [K _]]; rewrite K, E2; lia.
      * intros X. apply no_operand_start; auto.
    + apply (L_infix p t mk min l (tr ++ rest) r rest v); auto.
      apply IHr; try lia.
      * apply clean_tail, clean_cons in C. exact C.
      * split.
        -- intros _. assert (S p <= req (S p)) by (unfold req; destruct (Nat.eqb_spec (S p) 2), (Nat.eqb_spec (S p) 9); lia). lia.
        -- intros X. apply F2. destruct X as [us ->]. exists (tl ++ t :: us). now rewrite <- app_assoc.
      * apply loop_stop; lia.
  - (* ternary *)
    intros tc c ta a tb b Dc IHc Da IHa OS Db IHb rest min v LK C [F1 F2] M M9 L1.
    assert (EQ : (tc ++ TQ :: ta ++ TColon :: tb) ++ rest = tc ++ TQ :: ta ++ TColon :: tb ++ rest).
    { rewrite <- app_assoc. cbn [app]. rewrite <- app_assoc. reflexivity. }
    rewrite EQ in *. clear EQ. specialize (F1 ltac:(lia)). change (req 2) with 2 in F1.
    assert (ST := operand_start_ternary ta (TColon :: tb ++ rest) OS).
    apply IHc; auto; try lia; try len.
    + split; [|reflexivity]. intros _. cbn [eff newline_break loop_kind_of]. rewrite ST. cbn. lia.
    + apply (L_ternary min c (ta ++ TColon :: tb ++ rest) a (tb ++ rest) b rest v); auto.
      * apply IHa; try lia; try len.
        -- apply clean_tail, clean_cons in C. exact C.
        -- split; [intros _; apply Nat.ltb_lt; reflexivity|reflexivity].
        -- apply loop_stop; [lia|]. apply Nat.ltb_lt; reflexivity.
      * apply IHb; try lia.
        -- apply clean_tail, clean_cons, clean_tail, clean_cons in C. exact C.
        -- split; [intros _; exact F1|]. intros X. apply F2. destruct X as [us ->].
           exists (tc ++ TQ :: ta ++ TColon :: us). rewrite <- app_assoc. cbn [app]. now rewrite <- app_assoc.
        -- apply loop_stop; lia.
  - (* up *)
    intros p q ts e L D IH rest min v LK C [F1 F2] M M9 L1. apply IH; auto; try lia; try len.
    split; [|exact F2]. intros Q. specialize (F1 ltac:(lia)). pose proof (req_mono p q L Q). lia.
  - (* one argument *)
    intros ts e D IH rest LK C. 
    assert (Q : Ev (fun f => parse f 0 (ts ++ TRparen :: rest)) (e, TRparen :: rest)).
    { apply IH; auto; try lia; try len.
      - split; [intros _; apply Nat.ltb_lt; reflexivity|reflexivity].
      - apply loop_stop; [lia|]. apply Nat.ltb_lt; reflexivity. }
    evs. fuel. rewrite arguments1_S. unfold arguments1_body.
    rewrite (named_no _ _ _ (TRparen :: rest) D I). unfold PREC_NONE. rewrite Q by lia. reflexivity.
  - (* more arguments *)
    intros ts e tr l D IH DA IA rest LK C. rewrite <- app_assoc in *. cbn [app] in *.
    assert (Q : Ev (fun f => parse f 0 (ts ++ TComma :: tr ++ TRparen :: rest)) (e, TComma :: tr ++ TRparen :: rest)).
    { apply IH; auto; try lia; try len.
      - split; [intros _; apply Nat.ltb_lt; reflexivity|reflexivity].
      - apply loop_stop; [lia|]. apply Nat.ltb_lt; reflexivity. }
    apply clean_tail, clean_cons in C. specialize (IA rest LK C).
    evs. fuel. rewrite arguments1_S. unfold arguments1_body.
    rewrite (named_no _ _ _ (TComma :: tr ++ TRparen :: rest) D I). unfold PREC_NONE. rewrite Q by lia. cbn [obind].
    rewrite IA by lia. reflexivity.
Qed.
End Complete.
