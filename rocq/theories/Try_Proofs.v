From Verif Require Import Common Try_Model Try_Spec.
Local Open Scope nat_scope.

Scheme stmt_ind2 := Induction for stmt Sort Prop with items_ind2 := Induction for items Sort Prop.
Combined Scheme stmt_items_ind from stmt_ind2, items_ind2.

Lemma try_value_ok r t x : alike r t ->
  try_value r (repr t x) = Some (match x with Good v => inl v | Bad _ => inr (repr r x) end).
Proof.
  destruct r, t; cbn; try contradiction; destruct x; cbn; auto.
  - intros (<- & <- & N). destruct (Nat.eqb_spec ok err); [contradiction|reflexivity].
  - intros (<- & <- & N). now rewrite Nat.eqb_refl.
Qed.

Section P.
  Context {St : Type}.
  Variable act : nat -> St -> St.
  Variable cond : nat -> St -> bool * St.
  Variable val : nat -> St -> result * St.
  Variable set : nat -> Z -> St -> St.
  Variable r : rtype.
  (** The type of each expression *)
  Variable ty : nat -> rtype.
  Notation cval_of := (cval_of ty val).
  Notation typed := (typed r ty).
  Notation typed_all := (typed_all r ty).
  Notation texec := (texec act cond cval_of set r).
  Notation texecs := (texecs act cond cval_of set r).
  Notation exec := (exec act cond val set).
  Notation execs := (execs act cond val set).

  Definition leave (pend : list nat) (x : ending * St) : outcome * St :=
    match x with
    | (Normally, s) => (Normal, s)
    | (Returns v, s) => (Returned (repr r v), run_deferred act pend s)
    end.

  Lemma acts_eq l s : acts act l s = run_deferred act l s.
  Proof. revert s. induction l; intros s; cbn; auto. Qed.
  Lemma run_deferred_app l1 l2 s : run_deferred act (l1 ++ l2) s = run_deferred act l2 (run_deferred act l1 s).
  Proof. revert s. induction l1; intros s; cbn; auto. Qed.
  Lemma texecs_acts l s : texecs (map TAct l) s = (Normal, run_deferred act l s).
  Proof. revert s. induction l; intros s; cbn; auto. Qed.
  Lemma texec_block l s : texec (TBlock l) s = texecs l s.
  Proof. revert s. induction l as [|t l IH]; intros s; [reflexivity|]. cbn in *. destruct (texec t s) as [[] s']; auto. Qed.
  Lemma texec_if c t e s : texec (TIf c t e) s = let '(b, s) := cond c s in if b then texecs t s else texecs e s.
  Proof.
    cbn. destruct (cond c s) as [[] s']; [apply (texec_block t)|apply (texec_block e)].
  Qed.

  Definition has {A} (l : list A) : bool := match l with [] => false | _ => true end.
  Lemma execs_then own t l s : execs own (Then t l) s =
    match exec t s with (Normally, s) => execs own l s | (e, s) => (e, run_deferred act own s) end.
  Proof. reflexivity. Qed.
  Lemma emit_ok :
    (forall t pend s, unburdened (has pend) t -> typed t -> texec (emit pend t) s = leave pend (exec t s))
    /\ (forall l pend own s, unburdened_all (has (own ++ pend)) l -> typed_all l ->
        texecs (emits pend own l) s = leave pend (execs own l s)).
  Proof.
    apply stmt_items_ind.
    - reflexivity.
    - intros x e pend s U T. cbn in *. unfold Try_Spec.cval_of. destruct (val e s) as [v s'].
      rewrite (try_value_ok _ _ _ T). destruct v; cbn; auto. destruct pend; [reflexivity|discriminate].
    - intros l IH pend s U T. cbn [emit]. rewrite texec_block. apply IH; auto.
    - intros c t IHt e IHe pend s [U1 U2] [T1 T2]. cbn [emit]. rewrite texec_if. cbn.
      destruct (cond c s) as [[] s']; [apply IHt|apply IHe]; auto.
    - intros e pend s U T. cbn in *. unfold Try_Spec.cval_of. destruct (val e s) as [v s']. cbn. rewrite T, acts_eq. reflexivity.
    - intros pend own s U T. cbn [emits]. rewrite texecs_acts. reflexivity.
    - intros t IHt l IHl pend own s [U1 U2] [T1 T2]. cbn [emits Try_Model.texecs]. rewrite IHt by auto.
      rewrite execs_then. destruct (exec t s) as [[|v] s'] eqn:E; cbn [leave].
      + apply IHl; auto.
      + now rewrite run_deferred_app.
    - intros d l IH pend own s U T. cbn [emits]. rewrite IH; auto.
  Qed.
End P.
