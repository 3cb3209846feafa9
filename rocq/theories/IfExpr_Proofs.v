(** Proofs about if expressions. *)
From Verif Require Import Common Range_Model IfExpr_Model IfExpr_Spec.
Local Open Scope Z_scope.

Scheme exp_mut := Induction for exp Sort Prop
  with stmt_mut := Induction for stmt Sort Prop
  with block_mut := Induction for block Sort Prop
  with option_block_mut := Induction for option_block Sort Prop.
Combined Scheme exp_all from exp_mut, stmt_mut, block_mut, option_block_mut.

Lemma bits_width t : 2 ^ bits t = hi t - lo t + 1 /\ 0 < 2 ^ bits t.
Proof. destruct t as [[] []]; split; vm_compute; reflexivity. Qed.
Lemma convert_id t z : lo t <= z <= hi t -> convert t z = z.
Proof.
  intros H. unfold convert. destruct (bits_width t) as (E & P). rewrite Z.mod_small; lia.
Qed.

Section Proofs.
  Variable St : Type.
  Variable atom : nat -> St -> res (Z * St).
  Variable aty : nat -> cty.
  Hypothesis TY : typed St atom aty.

  Lemma branch_last e ds s : branch St atom (Last e) ds s = do '(v, s) <- meaning St atom e s; do s <- atoms St atom ds s; Ok (v, s).
  Proof. reflexivity. Qed.
  Lemma branch_do e b ds s : branch St atom (Then (Do e) b) ds s = do '(_, s) <- meaning St atom e s; branch St atom b ds s.
  Proof. reflexivity. Qed.
  Lemma cblock_set t e l v s : cblock St atom aty t (CSet e l) v s
    = do '(x, s) <- cev St atom aty e s; cblock St atom aty t l (Some (convert t x)) s.
  Proof. reflexivity. Qed.
  Lemma cblock_run t e l v s : cblock St atom aty t (CRun e l) v s = do '(_, s) <- cev St atom aty e s; cblock St atom aty t l v s.
  Proof. reflexivity. Qed.

  Definition good (e : exp) (c : cexp) : Prop :=
    (forall ds, emit e ds = (c, ds)) /\ ctype aty c = etype aty e
    /\ (forall s, cev St atom aty c s = meaning St atom e s)
    /\ forall s v s', meaning St atom e s = Ok (v, s') -> lo (etype aty e) <= v <= hi (etype aty e).
  Definition good_block (b : block) : Prop :=
    (exists ty, (forall ds, emit_last b ds = (ty, ds)) /\ ctype aty ty = btype aty b)
    /\ (exists l, (forall ds, emit_block b ds = (l, ds))
         /\ forall t v s, cblock St atom aty t l v s = do '(x, s) <- branch St atom b [] s; Ok (Some (convert t x), s))
    /\ forall s v s', branch St atom b [] s = Ok (v, s') -> lo (btype aty b) <= v <= hi (btype aty b).

  Lemma emit_good :
    (forall e, plain aty e -> exists c, good e c)
    /\ (forall s, plain_stmt aty s -> match s with Do e => exists c, good e c | Defer _ => False end)
    /\ (forall b, plain_block aty b -> good_block b)
    /\ (forall o, match o with Else b => plain_block aty b -> good_block b | NoElse => True end).
  Proof.
    apply exp_all.
    - intros a _. exists (CAtom a). unfold good. splits; auto. cbn [meaning]. intros s v s' E. now apply TY in E.
    - intros c IHc t IHt o IHo P. cbn [plain] in P. destruct P as (Pc & Pt & Po).
      destruct (IHc Pc) as (cc & Ec & Tc & Vc & Rc). destruct (IHt Pt) as ((ty & Ety & Tty) & (lt & Et & Vt) & Rt).
      destruct o as [|b]; [contradiction|]. destruct Po as (Pb & TB).
      destruct (IHo Pb) as (_ & (le & Ee & Ve) & Re).
      exists (CIf ty cc lt le). unfold good. splits.
      + intros ds. cbn [emit]. rewrite Ety, Ec, Et, Ee. reflexivity.
      + cbn [ctype etype]. exact Tty.
      + intros s. cbn [cev meaning]. rewrite Vc. destruct (meaning St atom c s) as [[x s1]| | |]; cbn [bind]; auto.
        rewrite Tty. destruct (x =? 0).
        * rewrite Ve. destruct (branch St atom b [] s1) as [[y s2]| | |] eqn:E; cbn [bind]; auto.
          rewrite convert_id; auto. rewrite <- TB. eauto.
        * rewrite Vt. destruct (branch St atom t [] s1) as [[y s2]| | |] eqn:E; cbn [bind]; auto.
          rewrite convert_id; eauto.
      + intros s v s' E. change (etype aty (If c t (Else b))) with (btype aty t).
        change (meaning St atom (If c t (Else b)) s) with
          (do '(x, s) <- meaning St atom c s; if x =? 0 then branch St atom b [] s else branch St atom t [] s) in E.
        apply bind_Ok in E as ([x s1] & _ & E).
        destruct (x =? 0); [rewrite <- TB|]; eauto.
    - intros e IH P. auto.
    - intros d P. contradiction P.
    - intros e IH P. cbn [plain_block] in P. destruct (IH P) as (c & E & T & V & R). unfold good_block. splits.
      + exists c. cbn [emit_last btype]. auto.
      + exists (CSet c CNil). split.
        * intros ds. cbn [emit_block]. now rewrite E.
        * intros t v s. rewrite cblock_set, branch_last, V. destruct (meaning St atom e s) as [[x s1]| | |]; reflexivity.
      + intros s v s' H. rewrite branch_last in H. change (btype aty (Last e)) with (etype aty e). apply bind_Ok in H as ([x s1] & H & H2). inversion H2; subst. eauto.
    - intros s IHs b IHb P. cbn [plain_block] in P. destruct P as (Ps & Pb). specialize (IHs Ps).
      destruct s as [e|d]; [|contradiction]. destruct IHs as (c & E & T & V & R).
      destruct (IHb Pb) as ((ty & Ety & Tty) & (l & El & Vl) & Rl). unfold good_block. splits.
      + exists ty. cbn [emit_last btype]. auto.
      + exists (CRun c l). split.
        * intros ds. cbn [emit_block emit_stmt]. now rewrite E, El.
        * intros t v s. rewrite cblock_run, branch_do, V. destruct (meaning St atom e s) as [[x s1]| | |]; cbn [bind]; auto.
      + intros s v s' H. rewrite branch_do in H. change (btype aty (Then (Do e) b)) with (btype aty b). apply bind_Ok in H as ([x s1] & H & H2). eauto.
    - exact Logic.I.
    - intros b IH. exact IH.
  Qed.

  Lemma run_all_app a b s : run_all St atom aty (a ++ b) s = do s <- run_all St atom aty a s; run_all St atom aty b s.
  Proof.
    revert s. induction a as [|e a IH]; intros s; cbn [app run_all]; auto.
    destruct (cev St atom aty e s) as [[x s1]| | |]; cbn [bind]; auto.
  Qed.
  Lemma run_atoms ds s : run_all St atom aty (map CAtom ds) s = atoms St atom ds s.
  Proof.
    revert s. induction ds as [|d ds IH]; intros s; cbn [map run_all atoms cev]; auto.
    destruct (atom d s) as [[x s1]| | |]; cbn [bind]; auto.
  Qed.
  Lemma body_good l : Forall (fun s => match s with Do e => plain aty e | Defer _ => True end) l ->
    forall ds s, (let '(code, ds) := emit_body l ds in run_all St atom aty (code ++ map CAtom ds) s) = body St atom l ds s.
  Proof.
    induction 1 as [|x l P F IH]; intros ds s; cbn [emit_body body].
    - apply run_atoms.
    - destruct x as [e|d]; [|apply IH].
      destruct (proj1 emit_good e P) as (c & E & _ & V & _). rewrite E.
      specialize (IH ds). destruct (emit_body l ds) as [r ds']. cbn [app run_all]. rewrite V.
      destruct (meaning St atom e s) as [[x s1]| | |]; cbn [bind]; auto.
  Qed.
End Proofs.
