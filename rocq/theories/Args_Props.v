(** C73: named and omitted arguments reach the parameters they are meant for *)
From Verif Require Import Common Pratt_Model Pratt_Spec Pratt_Props Args_Model Args_Spec Args_Proofs.
Local Open Scope nat_scope.

Lemma put_ok ts n : n < 4096 -> put ts n = PText ts n.
Proof. intros H. unfold put. destruct (Nat.ltb_spec n 4096); [reflexivity|lia]. Qed.

Section Props.
Variable len : tok -> nat.
Variable post : N.
Variable type_list : list tok -> bool.
Notation call := (call len post type_list).
Notation kept := (kept len post type_list).
Notation all_kept := (all_kept len post type_list).
Notation default_at_call := (default_at_call len post type_list).

(** A default of the plain kind reaches every call that omits it: the kept text parses
    back to the expression that was declared, and its value is the declared one wherever
    the caller does not hide a name it mentions. *)
Theorem C73_default_partial d ts m :
  ast_text len post d = PText ts m -> printable d -> (forall a b, ts = a ++ TLangle :: b -> type_list b = false) ->
  default_at_call d = Passed [d] /\
  forall V (I : interp V) locals globals, (forall x, In x (names d) -> locals x = None) ->
    eval I (scope locals globals) d = eval I globals d.
Proof.
  intros E P T. split.
  - apply kept_at_call. exists ts, m. now splits.
  - intros V I locals globals H. apply (eval_same V I _ _ (esize d)); [lia|]. intros x Hx.
    unfold scope. now rewrite (H x Hx).
Qed.

(** A call of a function whose definition has been parsed, if the compiler and then the C
    compiler (number of arguments) accept it, gives every parameter exactly what is meant. *)
Theorem C73_binding_partial ps args l :
  NoDup (map p_name ps) -> all_kept ps ->
  call Complete ps args = Passed l -> length l = length ps ->
  forall i v, nth_error l i = Some v <-> means ps args i v.
Proof.
  intros ND K E L. unfold Args_Model.call in E.
  assert (KS : all_kept (skipn (length args) ps)).
  { intros p d Hp. apply (K p d). rewrite <- (firstn_skipn (length args) ps). apply in_app_iff. now right. }
  rewrite (fill_declared _ _ _ _ KS) in E. destruct (validate ps args) eqn:V; [|discriminate].
  injection E as <-. apply validate_spec in V.
  rewrite app_length, map_length in L. pose proof (declared_length (skipn (length args) ps)) as B.
  rewrite skipn_length in B.
  assert (NA : length args <= length ps) by lia.
  assert (DL : length (declared (skipn (length args) ps)) = length (skipn (length args) ps)) by (rewrite skipn_length; lia).
  pose proof (declared_full _ DL) as F.
  assert (UN : forall i j p q, nth_error ps i = Some p -> nth_error ps j = Some q -> p_name p = p_name q -> i = j).
  { intros i j p q Hi Hj Hn. rewrite (NoDup_nth_error (map p_name ps)) in ND. apply ND.
    - rewrite map_length. apply nth_error_Some. congruence.
    - rewrite (map_nth_error p_name i ps Hi), (map_nth_error p_name j ps Hj). now rewrite Hn. }
  assert (AT : forall j a x, nth_error args j = Some a -> a_name a = Some x -> exists p, nth_error ps j = Some p /\ p_name p = x).
  { intros j a x Ha Hx. specialize (V j a x Ha Hx). destruct (nth_error ps j) as [p|] eqn:Hp; [eauto|].
    apply nth_error_None in Hp. assert (j < length args) by (apply nth_error_Some; congruence). lia. }
  intros i v. split.
  - intros H. destruct (Nat.lt_ge_cases i (length args)) as [LT|GE].
    + rewrite nth_error_app1 in H by (rewrite map_length; exact LT).
      destruct (nth_error args i) as [a|] eqn:Ha; [|apply nth_error_None in Ha; lia].
      rewrite (map_nth_error a_value i args Ha) in H. injection H as <-.
      destruct (nth_error ps i) as [p|] eqn:Hp; [|apply nth_error_None in Hp; lia].
      destruct (a_name a) as [x|] eqn:Hx.
      * destruct (AT i a x Ha Hx) as (q & Hq & Hn). eapply m_named; eauto. congruence.
      * eapply m_position; eauto.
    + rewrite nth_error_app2 in H by (rewrite map_length; exact GE). rewrite map_length in H.
      assert (IL : i < length ps).
      { assert (i - length args < length (declared (skipn (length args) ps))) by (apply nth_error_Some; congruence).
        rewrite DL, skipn_length in *. lia. }
      destruct (nth_error ps i) as [p|] eqn:Hp; [|apply nth_error_None in Hp; lia].
      assert (HS : nth_error (skipn (length args) ps) (i - length args) = Some p).
      { rewrite <- (firstn_skipn (length args) ps) in Hp. rewrite nth_error_app2 in Hp by (rewrite firstn_length; lia).
        rewrite firstn_length in Hp. replace (i - Nat.min (length args) (length ps)) with (i - length args) in Hp by lia. exact Hp. }
      rewrite <- (F _ _ HS) in H. eapply m_default; eauto.
      * intros j a Ha Hx. destruct (AT j a _ Ha Hx) as (q & Hq & Hn).
        assert (j = i) by (eapply UN; eauto). assert (j < length args) by (apply nth_error_Some; congruence). lia.
      * intros a Ha. assert (i < length args) by (apply nth_error_Some; congruence). lia.
  - intros M. destruct M as [p j a Hp Ha Hx | p a Hp Ha Hx | p d Hp Hd N1 N2].
    + destruct (AT j a _ Ha Hx) as (q & Hq & Hn). assert (j = i) by (eapply UN; eauto). subst j.
      rewrite nth_error_app1 by (rewrite map_length; apply nth_error_Some; congruence).
      now apply map_nth_error.
    + rewrite nth_error_app1 by (rewrite map_length; apply nth_error_Some; congruence).
      now apply map_nth_error.
    + assert (GE : length args <= i).
      { destruct (Nat.lt_ge_cases i (length args)) as [LT|GE]; [|exact GE].
        destruct (nth_error args i) as [a|] eqn:Ha; [|apply nth_error_None in Ha; lia].
        destruct (a_name a) as [x|] eqn:Hx; [|now elim (N2 a eq_refl)].
        destruct (AT i a x Ha Hx) as (q & Hq & Hn). elim (N1 i a Ha). congruence. }
      rewrite nth_error_app2 by (rewrite map_length; exact GE). rewrite map_length.
      assert (HS : nth_error (skipn (length args) ps) (i - length args) = Some p).
      { rewrite <- (firstn_skipn (length args) ps) in Hp. rewrite nth_error_app2 in Hp by (rewrite firstn_length; lia).
        rewrite firstn_length in Hp. replace (i - Nat.min (length args) (length ps)) with (i - length args) in Hp by lia. exact Hp. }
      now rewrite <- (F _ _ HS).
Qed.

(** Such a call is accepted exactly if every name stands at its parameter's position; and
    with all required arguments present every parameter gets one value. *)
Theorem C73_accept_partial ps args :
  all_kept ps ->
  ((exists l, call Complete ps args = Passed l) <-> in_order ps args) /\
  (in_order ps args -> length args <= length ps ->
   (forall i p, length args <= i -> nth_error ps i = Some p -> p_default p <> None) ->
   exists l, call Complete ps args = Passed l /\ length l = length ps).
Proof.
  intros K. unfold Args_Model.call.
  assert (KS : all_kept (skipn (length args) ps)).
  { intros p d Hp. apply (K p d). rewrite <- (firstn_skipn (length args) ps). apply in_app_iff. now right. }
  rewrite (fill_declared _ _ _ _ KS). split.
  - rewrite <- validate_spec. destruct (validate ps args).
    + split; [reflexivity|]. intros _. eauto.
    + split; [intros [l H]; discriminate|discriminate].
  - intros O L R. apply validate_spec in O. rewrite O. eexists. split; [reflexivity|].
    rewrite app_length, map_length.
    assert (D : forall qs, (forall p, In p qs -> p_default p <> None) -> length (declared qs) = length qs).
    { induction qs as [|q qs IH]; intros H; [reflexivity|]. cbn [declared length].
      destruct (p_default q) as [d|] eqn:E; [|now elim (H q (or_introl eq_refl))].
      cbn [length]. rewrite IH; [reflexivity|]. intros p Hp. apply H. now right. }
    rewrite D, skipn_length; [lia|]. intros p Hp. apply In_nth_error in Hp. destruct Hp as [i Hi].
    apply (R (length args + i) p); [lia|].
    rewrite <- (firstn_skipn (length args) ps). rewrite nth_error_app2; rewrite firstn_length, Nat.min_l by lia; [|lia].
    now replace (length args + i - length args) with i by lia.
Qed.

(** * What the compiler gets wrong *)

(** Names are not checked in a call inside the function's own body, of a function of an
    impl block, or of a function defined further down: two swapped names are accepted and
    the values go to the wrong parameters. *)
Theorem C73_unchecked_refuted k x y v w :
  k <> Complete -> x <> y -> v <> w ->
  let ps := [Build_param x None; Build_param y None] in
  let args := [Build_arg (Some y) v; Build_arg (Some x) w] in
  call k ps args = Passed [v; w] /\ means ps args 0 w /\ means ps args 1 v /\
  ~ means ps args 0 v /\ ~ means ps args 1 w /\ call Complete ps args = Rejected.
Proof.
  intros K XY VW. cbn zeta.
  assert (U : forall i u, means [Build_param x None; Build_param y None] [Build_arg (Some y) v; Build_arg (Some x) w] i u ->
    (i = 0 -> u = w) /\ (i = 1 -> u = v)).
  { intros i u M. destruct M as [p j a Hp Ha Hx | p a Hp Ha Hx | p d Hp Hd _ _].
    - split; intros ->; cbn in Hp; injection Hp as <-; destruct j as [|[|j]]; cbn in Ha;
        try (injection Ha as <-; cbn in Hx |- *; congruence); destruct j; discriminate.
    - split; intros ->; cbn in Ha; injection Ha as <-; discriminate.
    - split; intros ->; cbn in Hp; injection Hp as <-; discriminate. }
  splits.
  - destruct k; [congruence|reflexivity|reflexivity].
  - now apply (m_named _ _ 0 (Build_param x None) 1 (Build_arg (Some x) w)).
  - now apply (m_named _ _ 1 (Build_param y None) 0 (Build_arg (Some y) v)).
  - intros M. apply U in M. destruct M as [M _]. specialize (M eq_refl). congruence.
  - intros M. apply U in M. destruct M as [_ M]. specialize (M eq_refl). congruence.
  - cbn. destruct (N.eqb_spec y x); [congruence|]. reflexivity.
Qed.

(** A name in a default means whatever the caller calls so, be it a local variable of the
    caller: the value passed is that of the local. *)
Theorem C73_scope_refuted x V (I : interp V) locals globals v :
  len (TVar x) < 4096 -> locals x = Some v -> globals x <> v ->
  default_at_call (EVar x) = Passed [EVar x] /\
  eval I (scope locals globals) (EVar x) = v /\ eval I globals (EVar x) <> v.
Proof.
  intros L E N. splits.
  - unfold Args_Model.default_at_call. cbn [ast_text]. unfold put.
    destruct (Nat.ltb_spec (len (TVar x)) 4096); [|lia]. reflexivity.
  - cbn. unfold scope. now rewrite E.
  - exact N.
Qed.

(** A default that is a conditional (or ends in "?") is declared without complaint, but no
    call can omit it.  As the only argument of a call in a default it vanishes without
    notice, and "?." becomes ".": the test for null is lost. *)
Theorem C73_lost_refuted :
  (forall c a b, default_at_call (ETern c a b) = Rejected) /\
  (forall a, default_at_call (ETry a) = Rejected) /\
  (forall i x, len (TVar x) + 9 < 4096 -> default_at_call (EPost i (EVar x)) = Rejected) /\
  (forall f c a b, len (TVar f) < 255 -> default_at_call (ECall (EVar f) [ETern c a b]) = Passed [ECall (EVar f) []]) /\
  (forall x f, len (TVar x) + len (TVar f) + 1 < 4096 ->
     default_at_call (EMember TQDot (EVar x) (TVar f)) = Passed [EMember (TOp ODot false) (EVar x) (TVar f)]).
Proof.
  splits.
  - reflexivity.
  - reflexivity.
  - intros i x L. unfold Args_Model.default_at_call. cbn [ast_text].
    rewrite (put_ok [TVar x]) by lia. cbn [pbind]. rewrite put_ok by lia. destruct i; reflexivity.
  - intros f c a b L. unfold Args_Model.default_at_call. cbn [ast_text].
    rewrite (put_ok [TVar f]) by lia. cbn [pbind].
    destruct (Nat.ltb_spec (len (TVar f) + 1) 256); [|lia]. cbn [map args_text ast_text pbind].
    destruct (Nat.ltb_spec (len (TVar f) + 1 + 0) 4090); [|lia]. cbn [args_text pbind app]. rewrite put_ok by lia. reflexivity.
  - intros x f L. unfold Args_Model.default_at_call. cbn [ast_text].
    rewrite (put_ok [TVar x]) by lia. cbn [pbind]. rewrite put_ok by lia. reflexivity.
Qed.

(** A default with 2048 nested prefix operators overruns the printer's buffer *)
Fixpoint nest (k : nat) (e : expr) : expr := match k with O => e | S j => EUn UNeg (nest j e) end.
Theorem C73_overflow_refuted x k : 2048 <= k -> ast_text len post (nest k (EVar x)) = POver.
Proof.
  intros L.
  assert (H : forall j, match ast_text len post (nest j (EVar x)) with PText _ m => 2 * j <= m < 4096 | POver => True | PCut => False end).
  { induction j as [|j IH]; cbn [nest ast_text].
    - unfold put. destruct (Nat.ltb_spec (len (TVar x)) 4096); [lia|exact Logic.I].
    - destruct (ast_text len post (nest j (EVar x))) as [ts m| |]; cbn [pbind]; [|exact Logic.I|contradiction].
      unfold put. destruct (Nat.ltb_spec (m + len (prefix_token UNeg) + 2) 4096) as [B|B]; [|exact Logic.I]. lia. }
  specialize (H k). destruct (ast_text len post (nest k (EVar x))) as [ts m| |]; [|reflexivity|contradiction].
  exfalso. lia.
Qed.
End Props.

(** fn f(a, b = 2 * (a + 1), c = g(7)[0].q) called as f(10, b: 20) *)
Example C73_case :
  let d1 := EBin BMul (EInt 2) (EBin BAdd (EVar 1%N) (EInt 1)) in
  let d2 := EMember (TOp ODot false) (EIndex (ECall (EVar 5%N) [EInt 7]) (EInt 0)) (TVar 6%N) in
  let ps := [Build_param 1 None; Build_param 2 (Some d1); Build_param 3 (Some d2)]%N in
  let args := [Build_arg None (EInt 10); Build_arg (Some 2%N) (EInt 20)] in
  let len := fun _ => 1 in
  NoDup (map p_name ps) /\ all_kept len 99%N (fun _ => false) ps /\ in_order ps args /\
  call len 99%N (fun _ => false) Complete ps args = Passed [EInt 10; EInt 20; d2] /\
  means ps args 2 d2 /\ printable d1 /\
  ast_text len 99%N d1 = PText [TLparen; TInt 2; TOp OMul false; TLparen; TVar 1; TOp OAdd false; TInt 1; TRparen; TRparen] 13.
Proof.
  cbn zeta. splits.
  - repeat constructor; cbn; intuition discriminate.
  - intros p d Hp Hd. cbn in Hp.
    destruct Hp as [<-|[<-|[<-|[]]]]; cbn in Hd; [discriminate| |]; injection Hd as <-;
      (eexists; eexists; splits; [reflexivity| |reflexivity]); repeat (constructor; try discriminate).
  - intros j a x Ha Hx. destruct j as [|[|j]]; cbn in Ha; try (injection Ha as <-; cbn in Hx |- *; congruence).
    destruct j; discriminate.
  - reflexivity.
  - eapply m_default; [reflexivity|reflexivity| |].
    + intros j a Ha. destruct j as [|[|j]]; cbn in Ha; try (injection Ha as <-; discriminate). destruct j; discriminate.
    + intros a Ha. discriminate.
  - repeat constructor.
  - reflexivity.
Qed.

Print Assumptions C73_default_partial.
Print Assumptions C73_binding_partial.
Print Assumptions C73_accept_partial.
Print Assumptions C73_unchecked_refuted.
Print Assumptions C73_scope_refuted.
Print Assumptions C73_lost_refuted.
Print Assumptions C73_overflow_refuted.
