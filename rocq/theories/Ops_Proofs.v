From Verif Require Import Common Ops_Model Ops_Spec.
Local Open Scope Z_scope.

Scheme expr_ind2 := Induction for expr Sort Prop with target_ind2 := Induction for target Sort Prop.
Combined Scheme expr_target_ind from expr_ind2, target_ind2.

Section P.
  Variable ord : order.
  Variable op_val : N -> Z -> Z -> Z.
  Variable fun_val : N -> Z -> mem -> Z * mem.
  Notation eval := (eval ord op_val fun_val).
  Notation place := (place ord op_val fun_val).
  Notation c_eval := (c_eval ord op_val fun_val).
  Notation c_loc := (c_loc ord op_val fun_val).

  Lemma eq0 w z : eval w (EConst z) = (z, w).
  Proof. reflexivity. Qed.
  Lemma eq1 w t : eval w (ERead t) = let '(l, w1) := place w t in (load (fst w1) l, w1).
  Proof. reflexivity. Qed.
  Lemma eq2 w f e : eval w (ECall f e) = let '(v, w1) := eval w e in call fun_val f v w1.
  Proof. reflexivity. Qed.
  Lemma eq3 w op a b : eval w (EBin op a b) = match ord with
      | LeftFirst => let '(x, w1) := eval w a in let '(y, w2) := eval w1 b in (op_val op x y, w2)
      | RightFirst => let '(y, w1) := eval w b in let '(x, w2) := eval w1 a in (op_val op x y, w2)
      end.
  Proof. reflexivity. Qed.
  Lemma eq4 w a b : eval w (EAnd a b) = let '(x, w1) := eval w a in
      if x =? 0 then (0, w1) else let '(y, w2) := eval w1 b in (if y =? 0 then 0 else 1, w2).
  Proof. reflexivity. Qed.
  Lemma eq5 w a b : eval w (EOr a b) = let '(x, w1) := eval w a in
      if x =? 0 then let '(y, w2) := eval w1 b in (if y =? 0 then 0 else 1, w2) else (1, w1).
  Proof. reflexivity. Qed.
  Lemma eq6 w a b : eval w (ECoal a b) = let '(x, w1) := eval w a in if x =? 0 then eval w1 b else (x, w1).
  Proof. reflexivity. Qed.
  Lemma eq7 w t e : eval w (EAssign t e) = match ord with
      | LeftFirst => let '(l, w1) := place w t in let '(v, w2) := eval w1 e in (v, assign w2 l v)
      | RightFirst => let '(v, w1) := eval w e in let '(l, w2) := place w1 t in (v, assign w2 l v)
      end.
  Proof. reflexivity. Qed.
  Lemma eq8 w op t e : eval w (ECompound op t e) = match ord with
      | LeftFirst =>
        let '(l, w1) := place w t in
        let x := load (fst w1) l in
        let '(y, w2) := eval w1 e in
        let v := op_val op x y in (v, assign w2 l v)
      | RightFirst =>
        let '(y, w1) := eval w e in
        let '(l, w2) := place w1 t in
        let v := op_val op (load (fst w2) l) y in (v, assign w2 l v)
      end.
  Proof. reflexivity. Qed.
  Lemma eq9 w t e : eval w (ECoalAssign t e) = let '(l, w1) := place w t in
      let x := load (fst w1) l in
      if x =? 0 then let '(y, w2) := eval w1 e in (y, assign w2 l y) else (x, w1).
  Proof. reflexivity. Qed.
  Lemma eq10 w x : place w (TVar x) = (AtVar x, w).
  Proof. reflexivity. Qed.
  Lemma eq11 w a i : place w (TElem a i) = let '(v, w1) := eval w i in (AtElem a v, w1).
  Proof. reflexivity. Qed.
  Lemma eq12 ts w z : c_eval ts w (CConst z) = (z, ts, w).
  Proof. reflexivity. Qed.
  Lemma eq13 ts w t : c_eval ts w (CRead t) = let '(l, ts1, w1) := c_loc ts w t in (c_load ts1 w1 l, ts1, w1).
  Proof. reflexivity. Qed.
  Lemma eq14 ts w f e : c_eval ts w (CCall f e) = let '(v, ts1, w1) := c_eval ts w e in let '(r, w2) := call fun_val f v w1 in (r, ts1, w2).
  Proof. reflexivity. Qed.
  Lemma eq15 ts w op a b : c_eval ts w (CBin op a b) = match ord with
      | LeftFirst =>
        let '(x, ts1, w1) := c_eval ts w a in
        let '(y, ts2, w2) := c_eval ts1 w1 b in (op_val op x y, ts2, w2)
      | RightFirst =>
        let '(y, ts1, w1) := c_eval ts w b in
        let '(x, ts2, w2) := c_eval ts1 w1 a in (op_val op x y, ts2, w2)
      end.
  Proof. reflexivity. Qed.
  Lemma eq16 ts w a b : c_eval ts w (CAnd a b) = let '(x, ts1, w1) := c_eval ts w a in
      if x =? 0 then (0, ts1, w1)
      else let '(y, ts2, w2) := c_eval ts1 w1 b in (if y =? 0 then 0 else 1, ts2, w2).
  Proof. reflexivity. Qed.
  Lemma eq17 ts w a b : c_eval ts w (COr a b) = let '(x, ts1, w1) := c_eval ts w a in
      if x =? 0 then let '(y, ts2, w2) := c_eval ts1 w1 b in (if y =? 0 then 0 else 1, ts2, w2)
      else (1, ts1, w1).
  Proof. reflexivity. Qed.
  Lemma eq18 ts w a b : c_eval ts w (CCoal a b) = let '(x, ts1, w1) := c_eval ts w a in
      let ts2 := (tmp, x) :: ts1 in
      if x =? 0 then let '(y, ts3, w3) := c_eval ts2 w1 b in (y, tl ts3, w3)
      else (x, ts1, w1).
  Proof. reflexivity. Qed.
  Lemma eq19 ts w t e : c_eval ts w (CAssign t e) = match ord with
      | LeftFirst =>
        let '(l, ts1, w1) := c_loc ts w t in
        let '(v, ts2, w2) := c_eval ts1 w1 e in
        let '(ts3, w3) := c_store ts2 w2 l v in (v, ts3, w3)
      | RightFirst =>
        let '(v, ts1, w1) := c_eval ts w e in
        let '(l, ts2, w2) := c_loc ts1 w1 t in
        let '(ts3, w3) := c_store ts2 w2 l v in (v, ts3, w3)
      end.
  Proof. reflexivity. Qed.
  Lemma eq20 ts w x : c_loc ts w (CTVar x) = (AtVar x, ts, w).
  Proof. reflexivity. Qed.
  Lemma eq21 ts w a i : c_loc ts w (CTElem a i) = let '(v, ts1, w1) := c_eval ts w i in (AtElem a v, ts1, w1).
  Proof. reflexivity. Qed.
  Lemma ord_cases : ord = LeftFirst \/ ord = RightFirst.
  Proof. destruct ord; auto. Qed.
  Ltac pick := repeat match goal with
    | O : ord = LeftFirst |- context [match ord with LeftFirst => ?X | RightFirst => ?Y end] =>
      replace (match ord with LeftFirst => X | RightFirst => Y end) with X by (rewrite O; reflexivity)
    | O : ord = RightFirst |- context [match ord with LeftFirst => ?X | RightFirst => ?Y end] =>
      replace (match ord with LeftFirst => X | RightFirst => Y end) with Y by (rewrite O; reflexivity)
    end.
  Ltac split_ord := let O := fresh "O" in destruct ord_cases as [O|O]; pick.

  Ltac cb := repeat (progress (rewrite ?eq0, ?eq1, ?eq2, ?eq3, ?eq4, ?eq5, ?eq6, ?eq7, ?eq8, ?eq9, ?eq10, ?eq11, ?eq12, ?eq13, ?eq14, ?eq15, ?eq16, ?eq17, ?eq18, ?eq19, ?eq20, ?eq21; cbn [fst snd]; pick)).

  Lemma pure_ok : (forall e, pure e -> forall w, snd (eval w e) = w) /\ (forall t, pure_target t -> forall w, snd (place w t) = w).
  Proof.
    apply expr_target_ind; cbn [pure pure_target]; try contradiction.
    - reflexivity.
    - intros t IH P w. cb. specialize (IH P w). destruct (place w t). exact IH.
    - intros op a IHa b IHb [Pa Pb] w. cb. split_ord.
      + specialize (IHa Pa w). destruct (eval w a) as [x w1]. specialize (IHb Pb w1). destruct (eval w1 b). cbn in *. congruence.
      + specialize (IHb Pb w). destruct (eval w b) as [x w1]. specialize (IHa Pa w1). destruct (eval w1 a). cbn in *. congruence.
    - intros a IHa b IHb [Pa Pb] w. cb. specialize (IHa Pa w). destruct (eval w a) as [x w1]. cbn in IHa. subst.
      destruct (x =? 0); [reflexivity|]. specialize (IHb Pb w). destruct (eval w b). exact IHb.
    - intros a IHa b IHb [Pa Pb] w. cb. specialize (IHa Pa w). destruct (eval w a) as [x w1]. cbn in IHa. subst.
      destruct (x =? 0); [|reflexivity]. specialize (IHb Pb w). destruct (eval w b). exact IHb.
    - intros a IHa b IHb [Pa Pb] w. cb. specialize (IHa Pa w). destruct (eval w a) as [x w1]. cbn in IHa. subst.
      destruct (x =? 0); [|reflexivity]. apply (IHb Pb).
    - reflexivity.
    - intros a i IH P w. cb. specialize (IH P w). destruct (eval w i). exact IH.
  Qed.
  Lemma pure_eval e w v w1 : pure e -> eval w e = (v, w1) -> w1 = w.
  Proof. intros P E. pose proof (proj1 pure_ok e P w) as H. now rewrite E in H. Qed.
  Lemma pure_place t w v w1 : pure_target t -> place w t = (v, w1) -> w1 = w.
  Proof. intros P E. pose proof (proj2 pure_ok t P w) as H. now rewrite E in H. Qed.

  Definition hidden (ts : temps) : Prop := Forall (fun p => fst p = tmp) ts.
  Definition visible (l : loc) : Prop := match l with AtVar x => x <> tmp | AtElem _ _ => True end.
  Lemma not_in_temps ts x : hidden ts -> x <> tmp -> in_temps ts x = None.
  Proof.
    intros H N. induction H as [|[y v] r Hy _ IH]; [reflexivity|]. cbn [in_temps fst] in *. subst y.
    destruct (beq_bytes_spec tmp x); [congruence|exact IH].
  Qed.
  Lemma c_load_ok ts w l : hidden ts -> visible l -> c_load ts w l = load (fst w) l.
  Proof. intros H V. destruct l; [|reflexivity]. cbn [c_load c_store visible] in *. now rewrite not_in_temps. Qed.
  Lemma c_store_ok ts w l v : hidden ts -> visible l -> c_store ts w l v = (ts, assign w l v).
  Proof. intros H V. destruct l; [|reflexivity]. cbn [c_load c_store visible] in *. now rewrite not_in_temps. Qed.
  Lemma place_visible t w l w1 : clean_target t -> place w t = (l, w1) -> visible l.
  Proof. destruct t; cbn [clean_target]; cb; intros C E; [now inversion E; subst|]. destruct (eval w i). now inversion E. Qed.
  Lemma store_same w l : assign w l (load (fst w) l) = w.
  Proof. unfold assign, store. rewrite Z.eqb_refl. now destruct w. Qed.

  Lemma gen_ok :
    (forall e, clean e -> simple ord e -> forall ts w, hidden ts ->
       c_eval ts w (gen e) = (fst (eval w e), ts, snd (eval w e)))
    /\ (forall t, clean_target t -> simple_target ord t -> forall ts w, hidden ts ->
       c_loc ts w (gen_target t) = (fst (place w t), ts, snd (place w t))).
  Proof.
    apply expr_target_ind; cbn [clean clean_target simple simple_target gen gen_target]; intros.
    - reflexivity.
    - cb. rewrite H by auto. destruct (place w t) as [l w1] eqn:E. cb.
      rewrite c_load_ok; auto. eapply place_visible; eauto.
    - cb. rewrite H by auto. destruct (eval w e) as [v w1]. cb. destruct (call fun_val f v w1). reflexivity.
    - destruct H1, H2. cb. split_ord.
      + rewrite H by auto. destruct (eval w a) as [x w1]. cb. rewrite H0 by auto. destruct (eval w1 b). reflexivity.
      + rewrite H0 by auto. destruct (eval w b) as [x w1]. cb. rewrite H by auto. destruct (eval w1 a). reflexivity.
    - destruct H1, H2. cb. rewrite H by auto. destruct (eval w a) as [x w1]. cb. destruct (x =? 0); [reflexivity|].
      rewrite H0 by auto. destruct (eval w1 b). reflexivity.
    - destruct H1, H2. cb. rewrite H by auto. destruct (eval w a) as [x w1]. cb. destruct (x =? 0); [|reflexivity].
      rewrite H0 by auto. destruct (eval w1 b). reflexivity.
    - destruct H1, H2. cb. rewrite H by auto. destruct (eval w a) as [x w1]. cb. destruct (x =? 0); [|reflexivity].
      rewrite H0; auto. now constructor.
    - destruct H1, H2. cb. split_ord.
      + rewrite H by auto. destruct (place w t) as [l w1] eqn:E. cb. rewrite H0 by auto. destruct (eval w1 e) as [v w2].
        cb. rewrite c_store_ok; auto. eapply place_visible; eauto.
      + rewrite H0 by auto. destruct (eval w e) as [v w1]. cb. rewrite H by auto. destruct (place w1 t) as [l w2] eqn:E.
        cb. rewrite c_store_ok; auto. eapply place_visible; eauto.
    - destruct H1 as [C1 C2], H2 as (P & S1 & S2). cb. split_ord.
      + rewrite H by auto. destruct (place w t) as [l w1] eqn:E. cb. pose proof (pure_place _ _ _ _ P E). subst w1. cb.
        rewrite H by auto. rewrite E. cb. rewrite H0 by auto. destruct (eval w e) as [v w2].
        cb. pose proof (place_visible _ _ _ _ C1 E). rewrite c_store_ok, c_load_ok; auto.
      + rewrite H0 by auto. destruct (eval w e) as [v w1]. cb. rewrite H by auto. destruct (place w1 t) as [l w2] eqn:E.
        cb. pose proof (pure_place _ _ _ _ P E). subst w2. cb. rewrite H by auto. rewrite E. cb.
        pose proof (place_visible _ _ _ _ C1 E). rewrite c_store_ok, c_load_ok; auto.
    - destruct H1 as [C1 C2], H2 as (P & S1 & S2 & S3). cb. split_ord.
      + rewrite H by auto. destruct (place w t) as [l w1] eqn:E. cb. pose proof (pure_place _ _ _ _ P E). subst w1. cb.
        rewrite H by auto. rewrite E. cb. pose proof (place_visible _ _ _ _ C1 E). rewrite c_load_ok by auto.
        destruct (load (fst w) l =? 0).
        * rewrite H0; auto; [|now constructor]. destruct (eval w e) as [y w2]. cb. rewrite c_store_ok; auto.
        * rewrite c_store_ok by auto. rewrite store_same. reflexivity.
      + rewrite H by auto. destruct (place w t) as [l w1] eqn:E. cb. pose proof (pure_place _ _ _ _ P E). subst w1.
        pose proof (place_visible _ _ _ _ C1 E). rewrite c_load_ok by auto.
        destruct (load (fst w) l =? 0).
        * rewrite H0; auto; [|now constructor]. destruct (eval w e) as [y w2] eqn:Ee. cb.
          rewrite H by auto.
          assert (E2 : place w2 t = (l, w2)).
          { destruct t as [x|a i].
            - revert E. cb. intros E. now inversion E.
            - assert (Pe : pure e) by (rewrite O in S3; exact S3). pose proof (pure_eval _ _ _ _ Pe Ee). subst. exact E. }
          rewrite E2. cb. rewrite c_store_ok; auto.
        * rewrite H by auto. rewrite E. cb. rewrite c_store_ok by auto. rewrite store_same. reflexivity.
    - reflexivity.
    - cb. rewrite H by auto. destruct (eval w i). reflexivity.
  Qed.
End P.
