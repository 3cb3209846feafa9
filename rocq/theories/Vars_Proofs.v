(** Lemmas for C110. *)
From Verif Require Import Common Vars_Model Vars_Spec.
Local Open Scope Z_scope.

Lemma get_put x v g : get x g <> None -> get x (put x v g) = Some v.
Proof. induction g as [|[y w] g IH]; cbn [get put]; [congruence|]. destruct (beq_bytes x y) eqn:E; cbn [get]; rewrite E; auto. Qed.
Lemma get_put_other x y v g : x <> y -> get x (put y v g) = get x g.
Proof.
  intros N. induction g as [|[z w] g IH]; cbn [get put]; [reflexivity|]. destruct (beq_bytes y z) eqn:E; cbn [get].
  - destruct (beq_bytes x z) eqn:F; [|reflexivity]. apply beq_bytes_true in E, F. congruence.
  - destruct (beq_bytes x z); auto.
Qed.
Lemma get_cons_other x y v g : x <> y -> get x ((y, v) :: g) = get x g.
Proof. intros N. cbn [get]. destruct (beq_bytes x y) eqn:E; [apply beq_bytes_true in E; congruence|reflexivity]. Qed.
Lemma get_cons x v g : get x ((x, v) :: g) = Some v.
Proof. cbn [get]. now rewrite beq_bytes_refl. Qed.

Lemma emit_all_names l cs : emit_all l = Ok cs -> map cname cs = names l.
Proof.
  revert cs. induction l as [|d l IH]; intros cs H; cbn [emit_all] in H.
  - injection H as <-. reflexivity.
  - apply bind_Ok in H as (a & A & H). apply bind_Ok in H as (b & B & H). injection H as <-.
    unfold emit in A. apply bind_Ok in A as (v & _ & A). injection A as <-.
    unfold names. cbn [map concat]. rewrite map_app. fold (names l). rewrite <- (IH _ B). destruct (ddrop d); reflexivity.
Qed.
Lemma emit_all_in l cs d : emit_all l = Ok cs -> In d l ->
  exists v, local_value (dstatic d && negb (ddrop d)) (dty d) (dinit d) = Ok v
  /\ In (CD (dname d) (dstatic d && negb (ddrop d)) (dauto d && negb (ddrop d)) v) cs
  /\ (ddrop d = true -> In (CD (flag_name (dname d)) (dstatic d) (dauto d) (VNum 1)) cs).
Proof.
  revert cs. induction l as [|e l IH]; intros cs H I; cbn [emit_all] in H; [contradiction|].
  apply bind_Ok in H as (a & A & H). apply bind_Ok in H as (b & B & H). injection H as <-.
  destruct I as [->|I].
  - unfold emit in A. apply bind_Ok in A as (v & V & A). injection A as <-. exists v. split; [exact V|].
    destruct (ddrop d); cbn [negb]; rewrite ?andb_false_r, ?andb_true_r.
    + split; [right; left; reflexivity|]. intros _. left. reflexivity.
    + split; [left; reflexivity|discriminate].
  - destruct (IH b B I) as (v & V & J & K). exists v. splits; auto.
    + apply in_or_app. now right.
    + intros D. apply in_or_app. right. auto.
Qed.

Lemma enter_other cs : forall st x, ~ In x (map cname cs) -> get x (fst (enter cs st)) = get x st.
Proof.
  induction cs as [|c cs IH]; intros st x N; cbn [enter]; [reflexivity|]. cbn [map In] in N.
  set (st1 := if cstatic c then _ else st).
  destruct (enter cs st1) as [st' g] eqn:E. cbn [fst]. change st' with (fst (st', g)). rewrite <- E, IH by tauto.
  unfold st1. destruct (cstatic c); [|reflexivity]. destruct (get (cname c) st); [reflexivity|]. apply get_cons_other. intros ->. tauto.
Qed.
Definition first_value (c : cdecl) (st : env) : val :=
  if cstatic c then match get (cname c) st with Some v => v | None => cval c end else cval c.
Lemma enter_get cs : forall st c, NoDup (map cname cs) -> In c cs ->
  get (cname c) (snd (enter cs st)) = Some (first_value c st)
  /\ (cstatic c = true -> get (cname c) (fst (enter cs st)) <> None).
Proof.
  induction cs as [|e cs IH]; intros st c N I; [contradiction|]. cbn [map] in N. apply NoDup_cons_iff in N as (N1 & N2).
  cbn [enter]. set (st1 := if cstatic e then _ else st). destruct (enter cs st1) as [st' g] eqn:E. cbn [fst snd].
  destruct I as [->|I].
  - split.
    + rewrite get_cons. f_equal. unfold first_value, st1. destruct (cstatic c); [|reflexivity].
      destruct (get (cname c) st) eqn:G; [now rewrite G|]. now rewrite get_cons.
    + intros S. change st' with (fst (st', g)). rewrite <- E, enter_other by exact N1. unfold st1. rewrite S.
      destruct (get (cname c) st) eqn:G; [congruence|]. rewrite get_cons. discriminate.
  - assert (D : cname c <> cname e). { intros F. apply N1. rewrite <- F. now apply in_map. }
    destruct (IH st1 c N2 I) as (A & B). rewrite E in A, B. cbn [fst snd] in A, B. split; [|exact B].
    rewrite get_cons_other by exact D. rewrite A. f_equal. unfold first_value. destruct (cstatic c); [|reflexivity].
    unfold st1. destruct (cstatic e); [|reflexivity]. destruct (get (cname e) st); [reflexivity|]. now rewrite get_cons_other by exact D.
Qed.
Lemma leave_other cs g : forall st x, ~ In x (map cname cs) -> get x (leave cs g st) = get x st.
Proof.
  induction cs as [|c cs IH]; intros st x N; cbn [leave]; [reflexivity|]. cbn [map In] in N. rewrite IH by tauto.
  destruct (cstatic c); [|reflexivity]. destruct (get (cname c) g); [|reflexivity]. apply get_put_other. intros ->. tauto.
Qed.
Lemma leave_get cs g : forall st c, NoDup (map cname cs) -> In c cs -> cstatic c = true ->
  get (cname c) st <> None -> get (cname c) g <> None -> get (cname c) (leave cs g st) = get (cname c) g.
Proof.
  induction cs as [|e cs IH]; intros st c N I S G1 G2; [contradiction|]. cbn [map] in N. apply NoDup_cons_iff in N as (N1 & N2).
  cbn [leave]. destruct I as [->|I].
  - rewrite leave_other by exact N1. rewrite S. destruct (get (cname c) g) eqn:G; [|congruence]. now apply get_put.
  - assert (D : cname c <> cname e). { intros F. apply N1. rewrite <- F. now apply in_map. }
    apply IH; auto. destruct (cstatic e); [|exact G1]. destruct (get (cname e) g); [|exact G1]. now rewrite get_put_other by exact D.
Qed.

(** What one call does to the variable of a declaration *)
Lemma call_var l b st h st' h' x gi go d : call l b st h = Ok (st', h', x, (gi, go)) -> well_named l -> keeps b -> In d l ->
  exists v, local_value (dstatic d && negb (ddrop d)) (dty d) (dinit d) = Ok v
  /\ (dstatic d && negb (ddrop d) = false -> get (dname d) gi = Some v)
  /\ (dstatic d && negb (ddrop d) = true -> get (dname d) gi = Some (match get (dname d) st with Some w => w | None => v end)
       /\ get (dname d) st' = get (dname d) go /\ get (dname d) go <> None).
Proof.
  intros H W K I. unfold call in H. apply bind_Ok in H as (cs & E & H).
  destruct (emit_all_in _ _ _ E I) as (v & V & J & _). exists v. split; [exact V|].
  assert (ND : NoDup (map cname cs)) by (rewrite (emit_all_names _ _ E); exact W).
  destruct (enter_get cs st _ ND J) as (A & B). destruct (enter cs st) as [s g] eqn:En. cbn [fst snd] in A, B.
  destruct (b g h) as [[g' hb] xb] eqn:Bo. apply bind_Ok in H as (h2 & _ & H). injection H as <- _ _ <- <-.
  unfold first_value in A. cbn [cstatic cname cval] in A, B. split; intros S; rewrite S in A, B.
  - exact A.
  - assert (G : get (dname d) g' <> None). { pose proof (K g h (dname d)) as Q. rewrite Bo in Q. apply Q. rewrite A. discriminate. }
    splits; auto. pose proof (leave_get cs g' s _ ND J) as L. cbn [cname cstatic] in L. apply L; auto.
Qed.

(** Cleaning up *)
Lemma emit_cleanup l cs g : emit_all l = Ok cs -> (forall d, In d l -> dauto d = true -> ddrop d = false) -> parsed l -> forall h,
  cleanup cs g h = match held l g with
                   | Some bs => fold_right (fun b r => do h <- r; free_ h (VPtr b)) (Ok h) bs
                   | None => cleanup cs g h end.
Proof.
  revert cs. induction l as [|d l IH]; intros cs H D P h; cbn [emit_all] in H.
  - injection H as <-. reflexivity.
  - apply bind_Ok in H as (a & A & H). apply bind_Ok in H as (b & B & H). injection H as <-.
    assert (IH' : forall h, cleanup b g h = match held l g with Some bs => fold_right (fun b r => do h <- r; free_ h (VPtr b)) (Ok h) bs | None => cleanup b g h end).
    { apply (IH b B). - intros e I. apply D. now right. - intros e I. apply P. now right. }
    unfold emit in A. apply bind_Ok in A as (v & _ & A). injection A as <-. cbn [held].
    pose proof (D d (or_introl eq_refl)) as D1. pose proof (P d (or_introl eq_refl)) as P1.
    destruct (dauto d) eqn:AU.
    + rewrite (D1 eq_refl), (P1 eq_refl). cbn [app cleanup cauto cstatic negb andb cname].
      destruct (get (dname d) g) as [[]|]; try reflexivity; destruct (held l g) as [bs|]; try reflexivity.
      * rewrite IH'. destruct (fold_right _ _ bs); reflexivity.
      * cbn [fold_right]. now rewrite IH'.
    + assert (Z : cleanup ((if ddrop d then [CD (flag_name (dname d)) (dstatic d) false (VNum 1); CD (dname d) false false v] else [CD (dname d) (dstatic d) false v]) ++ b) g h = cleanup b g h).
      { destruct (ddrop d); cbn [app cleanup cauto andb]; destruct (cleanup b g h); reflexivity. }
      rewrite Z. specialize (IH' h). destruct (held l g); [exact IH'|reflexivity].
Qed.
Lemma nth_error_upd_same (h : heap) b x : (b < length h)%nat -> nth_error (upd h b x) b = Some x.
Proof. revert b. induction h as [|y h IH]; intros [|b] L; cbn in *; try lia; auto. apply IH. lia. Qed.
Lemma nth_error_upd_other (h : heap) b c x : b <> c -> nth_error (upd h b x) c = nth_error h c.
Proof. revert b c. induction h as [|y h IH]; intros [|b] [|c] L; cbn; try congruence; auto. Qed.
Lemma free_all bs : forall h, NoDup bs -> (forall b, In b bs -> nth_error h b = Some true) ->
  exists h', fold_right (fun b r => do h <- r; free_ h (VPtr b)) (Ok h) bs = Ok h' /\ length h' = length h
  /\ forall b, nth_error h' b = if existsb (Nat.eqb b) bs then Some false else nth_error h b.
Proof.
  induction bs as [|c bs IH]; intros h N A; cbn [fold_right existsb].
  - exists h. auto.
  - apply NoDup_cons_iff in N as (N1 & N2). destruct (IH h N2) as (h1 & E & L & G). { intros b I. apply A. now right. }
    rewrite E. cbn [bind free_]. rewrite G.
    assert (X : existsb (Nat.eqb c) bs = false). { destruct (existsb (Nat.eqb c) bs) eqn:X; [|reflexivity]. apply existsb_exists in X as (y & Y & Z). apply Nat.eqb_eq in Z. subst. contradiction. }
    rewrite X, (A c (or_introl eq_refl)). exists (upd h1 c false). splits; auto.
    + now rewrite length_upd.
    + intros b. destruct (Nat.eqb_spec b c) as [->|D]; cbn [orb].
      * apply nth_error_upd_same. rewrite L. apply nth_error_Some. rewrite (A c (or_introl eq_refl)). discriminate.
      * rewrite nth_error_upd_other by congruence. apply G.
Qed.
Lemma free_twice bs : forall h, ~ NoDup bs -> fold_right (fun b r => do h <- r; free_ h (VPtr b)) (Ok h) bs = UB.
Proof.
  assert (K : forall bs h h', fold_right (fun b r => do h <- r; free_ h (VPtr b)) (Ok h) bs = Ok h' -> NoDup bs /\ forall b, In b bs -> nth_error h' b = Some false).
  { induction bs0 as [|c l IH]; intros h h' E; cbn [fold_right] in E.
    - split; [constructor|contradiction].
    - apply bind_Ok in E as (h1 & E & F). destruct (IH _ _ E) as (A & B). cbn [free_] in F. destruct (nth_error h1 c) as [[]|] eqn:G; try discriminate.
      injection F as <-. assert (X : ~ In c l). { intros I. specialize (B c I). congruence. } split; [now constructor|].
      intros b [->|I]; [apply nth_error_upd_same; apply nth_error_Some; congruence|]. rewrite nth_error_upd_other by (intros ->; contradiction). auto. }
  assert (R : forall bs h, (exists h', fold_right (fun b r => do h <- r; free_ h (VPtr b)) (Ok h) bs = Ok h') \/ fold_right (fun b r => do h <- r; free_ h (VPtr b)) (Ok h) bs = UB).
  { induction bs0 as [|c l IH]; intros h; cbn [fold_right]; [left; eauto|]. destruct (IH h) as [(h1 & ->)| ->]; [|now right].
    cbn [bind free_]. destruct (nth_error h1 c) as [[]|]; eauto. }
  intros h N. destruct (R bs h) as [(h' & E)|E]; [|exact E]. apply K in E as (A & _). contradiction.
Qed.
