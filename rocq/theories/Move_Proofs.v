From Verif Require Import Common Move_Model Move_Spec.
Local Open Scope nat_scope.

Scheme expr_mut := Induction for expr Sort Prop with exprs_mut := Induction for exprs Sort Prop.
Combined Scheme e_ind from expr_mut, exprs_mut.
Scheme stmt_mut := Induction for stmt Sort Prop with items_mut := Induction for items Sort Prop with cases_mut := Induction for cases Sort Prop.
Combined Scheme s_ind from stmt_mut, items_mut, cases_mut.

(** ** Statuses *)
Lemma set_first_status m x s : match set_first m x s with
  | Some m' => forall y, get_status m' y = if x =? y then s else get_status m y
  | None => forall t, ~ In (x, t) m
  end.
Proof.
  induction m as [|[z u] m IH]; cbn [set_first]; [intros t []|]. destruct (Nat.eqb_spec z x) as [->|N].
  - intros y. cbn [get_status]. destruct (x =? y); reflexivity.
  - destruct (set_first m x s) as [m'|].
    + intros y. cbn [get_status]. rewrite IH. destruct (Nat.eqb_spec z y) as [->|N2]; [|reflexivity]. destruct (Nat.eqb_spec x y); [congruence|reflexivity].
    + intros t [E|I]; [congruence|now apply (IH t)].
Qed.
Lemma status_mark m x s y : get_status (mark m x s) y = if x =? y then s else get_status m y.
Proof. unfold mark. pose proof (set_first_status m x s) as H. destruct (set_first m x s) as [m'|]; [apply H|reflexivity]. Qed.
Lemma merge_from_keeps a : forall t b x, get_status t x = Moved -> get_status (merge_from t a b) x = Moved.
Proof.
  unfold merge_from. induction a as [|[y s] a IH]; intros t b x H; cbn [fold_left]; [assumption|]. apply IH.
  destruct (is_moved _ || _); [|assumption]. rewrite status_mark. now destruct (_ =? x).
Qed.
Lemma merge_from_takes a : forall t b x, get_status a x = Moved -> get_status (merge_from t a b) x = Moved.
Proof.
  induction a as [|[y s] a IH]; intros t b x H; cbn [get_status] in H; [discriminate|]. unfold merge_from. cbn [fold_left fst snd].
  destruct (Nat.eqb_spec y x) as [->|N].
  - subst s. cbn [is_moved orb]. apply (merge_from_keeps a). rewrite status_mark. now rewrite Nat.eqb_refl.
  - apply (IH _ b). exact H.
Qed.
Lemma merge_keeps t a b x : get_status t x = Moved -> get_status (merge t a b) x = Moved.
Proof. intros H. unfold merge. destruct b as [b|]; [apply merge_from_keeps|]; now apply merge_from_keeps. Qed.
Lemma merge_left t a b x : get_status a x = Moved -> get_status (merge t a b) x = Moved.
Proof. intros H. unfold merge. destruct b as [b|]; [apply merge_from_keeps|]; now apply merge_from_takes. Qed.
Lemma merge_right t a b x : get_status b x = Moved -> get_status (merge t a (Some b)) x = Moved.
Proof. intros H. unfold merge. now apply merge_from_takes. Qed.

(** ** The checker: errors stay, and only assignment makes a name valid *)
Definition keeps (x : nat) (c c' : ckd) : Prop := (snd c' = true -> snd c = true) /\ (get_status (fst c) x = Moved -> get_status (fst c') x = Moved).
Lemma keeps_refl x c : keeps x c c. Proof. split; auto. Qed.
Lemma keeps_trans x a b c : keeps x a b -> keeps x b c -> keeps x a c.
Proof. intros [A1 A2] [B1 B2]. split; auto. Qed.
Lemma keeps_use x env lhs y c : keeps x c (check_use env lhs y c).
Proof. unfold check_use. destruct c as [m ok]. destruct lhs; [apply keeps_refl|]. destruct (lookup env y); [|apply keeps_refl]. split; cbn; [|auto]. intros E. now apply andb_prop in E. Qed.
Lemma keeps_move_var x env y c : keeps x c (move_var env y c).
Proof. unfold move_var. destruct (lookup env y) as [[]|]; try apply keeps_refl. split; cbn; [auto|]. intros E. rewrite status_mark. now destruct (y =? x). Qed.
Lemma keeps_rvalue x env e c : keeps x c (move_rvalue env e c).
Proof. unfold move_rvalue. destruct e; try apply keeps_refl. apply keeps_move_var. Qed.
Lemma keeps_revive x env y c : y <> x -> keeps x c (revive_var env y c).
Proof. intros N. unfold revive_var. destruct (lookup env y) as [t|]; [|apply keeps_refl]. split; cbn; [auto|]. intros E. rewrite status_mark. now destruct (Nat.eqb_spec y x). Qed.
Lemma ok_revive env y c : snd (revive_var env y c) = snd c.
Proof. unfold revive_var. now destruct (lookup env y). Qed.
Lemma keeps_expr :
  (forall e x env lhs c, ~ In x (assigned_in e) -> keeps x c (check_expr env lhs e c))
  /\ (forall es x env lhs mv c, ~ In x (assigned_ins es) -> keeps x c (check_exprs env lhs mv es c)).
Proof.
  apply e_ind; cbn [check_expr check_exprs assigned_in assigned_ins]; intros; try rewrite !in_app_iff in *.
  - apply keeps_refl.
  - apply keeps_use.
  - now apply H.
  - now apply H.
  - now apply H.
  - eapply keeps_trans; [apply H; firstorder|]. eapply keeps_trans; [apply keeps_rvalue|]. apply keeps_revive. intros ->. apply H0. now left.
  - eapply keeps_trans; [apply H; tauto|]. eapply keeps_trans; [apply H0; tauto|]. apply keeps_rvalue.
  - eapply keeps_trans; [apply H; tauto|]. eapply keeps_trans; [apply H0; tauto|]. apply H1; tauto.
  - eapply keeps_trans; [apply H; tauto|]. apply H0; tauto.
  - apply keeps_refl.
  - eapply keeps_trans; [apply H; tauto|]. eapply keeps_trans; [|apply H0; tauto]. destruct mv; [apply keeps_rvalue|apply keeps_refl].
Qed.
Lemma keeps_plain e x env c : ~ In x (assigned_in e) -> keeps x c (check_plain env e c).
Proof. apply keeps_expr. Qed.
Lemma keeps_init e x env c : ~ In x (assigned_in e) -> keeps x c (check_init env e c).
Proof. intros N. unfold check_init. eapply keeps_trans; [apply (proj1 keeps_expr e x env false c N)|]. apply keeps_rvalue. Qed.
Lemma keeps_merge1 x c mt okt : keeps x c (mt, okt) -> keeps x c (merge (fst c) mt None, okt).
Proof. intros [A B]. split; cbn [fst snd] in *; [exact A|]. intros E. now apply merge_keeps. Qed.
Lemma keeps_stmt :
  (forall s x env c, ~ In x (assigned_s s) -> keeps x c (check_stmt env s c))
  /\ (forall l x env c, ~ In x (assigned_l l) -> keeps x c (check_items env l c))
  /\ (forall cs x env c, ~ In x (assigned_c cs) -> keeps x c (check_cases env cs c)).
Proof.
  apply s_ind; cbn [check_stmt check_items check_cases assigned_s assigned_l assigned_c]; intros; try rewrite !in_app_iff in *.
  - now apply keeps_plain.
  - now apply H.
  - pose proof (keeps_plain c x env c0 ltac:(tauto)) as K. destruct (check_plain env c c0) as [m ok]. 
    pose proof (H x env (m, ok) ltac:(tauto)) as K2. destruct (check_stmt env t (m, ok)) as [mt okt].
    eapply keeps_trans; [exact K|]. apply (keeps_merge1 x (m, ok)), K2.
  - pose proof (keeps_plain c x env c0 ltac:(tauto)) as K. destruct (check_plain env c c0) as [m ok]. 
    pose proof (H x env (m, ok) ltac:(tauto)) as K2. destruct (check_stmt env t (m, ok)) as [mt okt].
    pose proof (H0 x env (m, okt) ltac:(tauto)) as K3. destruct (check_stmt env e (m, okt)) as [me oke].
    eapply keeps_trans; [exact K|]. destruct K2 as [K2 _], K3 as [K3 _]. split; cbn [fst snd] in *; [auto|]. intros E. now apply merge_keeps.
  - eapply keeps_trans; [|apply H; tauto]. apply keeps_plain; tauto.
  - eapply keeps_trans; [|apply H; tauto]. apply keeps_plain; tauto.
  - eapply keeps_trans; [|apply H; tauto]. apply keeps_plain; tauto.
  - eapply keeps_trans; [|apply H; tauto]. eapply keeps_trans; [|apply keeps_plain; tauto]. eapply keeps_trans; [|apply keeps_plain; tauto]. apply keeps_init; tauto.
  - now apply H.
  - apply keeps_refl.
  - apply keeps_refl.
  - now apply keeps_plain.
  - apply keeps_refl.
  - apply keeps_refl.
  - apply keeps_refl.
  - eapply keeps_trans; [apply H; tauto|]. apply H0; tauto.
  - eapply keeps_trans; [|apply H; tauto]. apply keeps_init; tauto.
  - eapply keeps_trans; [|apply H; tauto]. apply keeps_plain; tauto.
  - apply keeps_refl.
  - eapply keeps_trans; [apply H; tauto|]. apply H0; tauto.
Qed.
(* errors stay, whatever is assigned *)
Definition okk (c c' : ckd) : Prop := snd c' = true -> snd c = true.
Lemma ok_expr : (forall e env lhs c, okk c (check_expr env lhs e c)) /\ (forall es env lhs mv c, okk c (check_exprs env lhs mv es c)).
Proof.
  assert (RV : forall env e c, okk c (move_rvalue env e c)) by (intros env e c; exact (proj1 (keeps_rvalue 0 env e c))).
  unfold okk in *. apply e_ind; cbn [check_expr check_exprs]; intros; auto.
  - exact (proj1 (keeps_use 0 env lhs x c) H).
  - eapply H; eauto.
  - eapply H; eauto.
  - eapply H; eauto.
  - rewrite ok_revive in H0. apply RV in H0. eapply H; eauto.
  - apply RV in H1. apply H0 in H1. eapply H; eauto.
  - apply H1 in H2. apply H0 in H2. eapply H; eauto.
  - apply H0 in H1. eapply H; eauto.
  - apply H0 in H1. eapply H with (lhs := lhs) (env := env). destruct mv; [now apply RV in H1|assumption].
Qed.
Lemma ok_init env e c : okk c (check_init env e c).
Proof. intros E. unfold check_init in E. apply (proj1 (keeps_rvalue 0 _ _ _)) in E. now apply (proj1 ok_expr) in E. Qed.
Lemma ok_stmt : (forall s env c, okk c (check_stmt env s c)) /\ (forall l env c, okk c (check_items env l c)) /\ (forall cs env c, okk c (check_cases env cs c)).
Proof.
  assert (PL : forall env e c, okk c (check_plain env e c)) by (intros env e c; apply ok_expr).
  pose proof ok_init as IN. unfold okk in *. apply s_ind; cbn [check_stmt check_items check_cases]; intros; auto.
  - eauto.
  - eauto.
  - pose proof (PL env c c0) as K. destruct (check_plain env c c0) as [m ok]. pose proof (H env (m, ok)) as K2. destruct (check_stmt env t (m, ok)) as [mt okt]. cbn in *. auto.
  - pose proof (PL env c c0) as K. destruct (check_plain env c c0) as [m ok]. pose proof (H env (m, ok)) as K2. destruct (check_stmt env t (m, ok)) as [mt okt].
    pose proof (H0 env (m, okt)) as K3. destruct (check_stmt env e (m, okt)) as [me oke]. cbn in *. auto.
  - eauto.
  - eauto.
  - eauto.
  - apply H in H0. eauto.
  - eauto.
  - eauto.
  - eauto.
  - eauto.
  - eauto.
  - eauto.
Qed.

(** ** Runs: what can change *)
Definition frame (P : nat -> Prop) (r r' : list var) : Prop :=
  Forall2 (fun v v' => name v' = name v /\ owned v' = owned v /\ (P (name v) \/ gone v' = gone v)) r r'.
Lemma frame_refl P r : frame P r r.
Proof. induction r as [|v r IH]; constructor; auto. Qed.
Lemma frame_trans P a b c : frame P a b -> frame P b c -> frame P a c.
Proof.
  intros H. revert c. induction H as [|v v' a b (A1 & A2 & A3) H IH]; intros c K; inversion K as [|? v2 ? c' (B1 & B2 & B3) K']; subst; constructor; [|now apply IH].
  rewrite B1, B2, A1, A2. repeat split. destruct A3 as [A3|A3]; [now left|]. rewrite A1 in B3. destruct B3 as [B3|B3]; [now left|right; congruence].
Qed.
Lemma frame_weak (P Q : nat -> Prop) a b : (forall x, P x -> Q x) -> frame P a b -> frame Q a b.
Proof. intros I H. induction H as [|v v' a b (A1 & A2 & A3) H IH]; constructor; [|assumption]. repeat split; auto. destruct A3; auto. Qed.
Lemma frame_length P a b : frame P a b -> length b = length a.
Proof. intros H. induction H; cbn; congruence. Qed.
Lemma frame_move (P : nat -> Prop) r x : P x -> frame P r (move r x).
Proof.
  intros Px. induction r as [|v r IH]; cbn [move]; [constructor|]. destruct (Nat.eqb_spec (name v) x) as [E|N].
  - constructor; [|apply frame_refl]. destruct (owned v) eqn:O; cbn; rewrite ?O; repeat split; auto; left; congruence.
  - constructor; [|assumption]. auto.
Qed.
Lemma frame_revive (P : nat -> Prop) r x : P x -> frame P r (revive r x).
Proof.
  intros Px. induction r as [|v r IH]; cbn [revive]; [constructor|]. destruct (Nat.eqb_spec (name v) x) as [E|N].
  - constructor; [|apply frame_refl]. cbn. repeat split; auto. left; congruence.
  - constructor; [|assumption]. auto.
Qed.
Lemma frame_skipn P k a b : frame P a b -> frame P (skipn k a) (skipn k b).
Proof. intros H. revert k. induction H as [|v v' a b A H IH]; intros [|k]; cbn; try constructor; auto. Qed.
Lemma toss_fst s : fst (snd (toss s)) = fst s.
Proof. unfold toss. destruct (snd s); reflexivity. Qed.

Lemma eval_frame :
  (forall e m s (P : nat -> Prop), (forall x, In x (moved_in m e) \/ In x (assigned_in e) -> P x) -> frame P (fst s) (fst (snd (eval m e s))))
  /\ (forall es m s (P : nat -> Prop), (forall x, In x (moved_ins m es) \/ In x (assigned_ins es) -> P x) -> frame P (fst s) (fst (snd (evals m es s)))).
Proof.
  apply e_ind; cbn [moved_in moved_ins assigned_in assigned_ins].
  - intros m s P _. apply frame_refl.
  - intros x m s P H. cbn [eval]. destruct (dead (fst s) x); [apply frame_refl|]. destruct m; [|apply frame_refl]. apply frame_move, H. left. now left.
  - intros es IH m s P H. apply IH, H.
  - intros es IH m s P H. apply IH, H.
  - intros es IH m s P H. apply IH, H.
  - intros x e IH m s P H. cbn [eval]. specialize (IH true s P). destruct (eval true e s) as [ok s1]. 
    assert (F : frame P (fst s) (fst s1)) by (apply IH; intros y Y; apply H; destruct Y; [now left|right; now right]).
    destruct ok; [|exact F]. eapply frame_trans; [exact F|]. apply frame_revive, H. right. now left.
  - intros l IHl e IHe m s P H. cbn [eval]. specialize (IHl false s P). destruct (eval false l s) as [ok s1].
    assert (F : frame P (fst s) (fst s1)) by (apply IHl; intros y Y; apply H; rewrite !in_app_iff; tauto).
    destruct ok; [|exact F]. eapply frame_trans; [exact F|]. apply IHe. intros y Y. apply H. rewrite !in_app_iff. tauto.
  - intros c IHc a IHa b IHb m s P H. cbn [eval]. specialize (IHc false s P). destruct (eval false c s) as [ok s1].
    assert (F : frame P (fst s) (fst s1)) by (apply IHc; intros y Y; apply H; rewrite !in_app_iff; tauto).
    destruct ok; [|exact F]. pose proof (toss_fst s1) as T. destruct (toss s1) as [t s2]. cbn in T. rewrite <- T in F.
    eapply frame_trans; [exact F|]. destruct t; [apply IHa|apply IHb]; intros y Y; apply H; rewrite !in_app_iff; tauto.
  - intros a IHa b IHb m s P H. cbn [eval]. specialize (IHa false s P). destruct (eval false a s) as [ok s1].
    assert (F : frame P (fst s) (fst s1)) by (apply IHa; intros y Y; apply H; rewrite !in_app_iff; tauto).
    destruct ok; [|exact F]. pose proof (toss_fst s1) as T. destruct (toss s1) as [t s2]. cbn in T. rewrite <- T in F.
    destruct t; [|exact F]. eapply frame_trans; [exact F|]. apply IHb. intros y Y; apply H; rewrite !in_app_iff; tauto.
  - intros m s P _. apply frame_refl.
  - intros e IHe es IHes m s P H. cbn [evals]. specialize (IHe m s P). destruct (eval m e s) as [ok s1].
    assert (F : frame P (fst s) (fst s1)) by (apply IHe; intros y Y; apply H; rewrite !in_app_iff; tauto).
    destruct ok; [|exact F]. eapply frame_trans; [exact F|]. apply IHes. intros y Y; apply H; rewrite !in_app_iff; tauto.
Qed.
Lemma test_frame c s (P : nat -> Prop) : (forall x, In x (moved_in false c) \/ In x (assigned_in c) -> P x) -> frame P (fst s) (fst (snd (test c s))).
Proof.
  intros H. unfold test. pose proof (proj1 eval_frame c false s P H) as F. destruct (eval false c s) as [ok s1]. destruct ok; [|exact F].
  pose proof (toss_fst s1) as T. destruct (toss s1) as [t s2]. cbn in *. now rewrite T.
Qed.

(* what a statement that ends with [o] may have changed *)
Definition after (o : outcome) (P : nat -> Prop) (x : nat) : Prop := o = OReturn \/ P x.
Definition oframe (P : nat -> Prop) (r : list var) (res : option (outcome * st)) : Prop :=
  match res with Some (OBad, _) | None => True | Some (o, s) => frame (after o P) r (fst s) end.
Lemma oframe_pre P a b res : frame P a b -> oframe P b res -> oframe P a res.
Proof.
  intros F. destruct res as [[[] s]|]; cbn; auto; intros G; (eapply frame_trans; [|exact G]); (eapply frame_weak; [|exact F]); intros x; now right.
Qed.
Lemma loop_frame P cond body step :
  (forall s, frame P (fst s) (fst (snd (cond s)))) -> (forall s, oframe P (fst s) (body s)) -> (forall s, frame P (fst s) (fst (snd (step s)))) ->
  forall n s, oframe P (fst s) (loop n cond body step s).
Proof.
  intros HC HB HS. induction n as [|n IH]; intros s; cbn [loop]; [exact I|]. specialize (HC s). destruct (cond s) as [[[]|] s1]; cbn [fst snd] in HC.
  - specialize (HB s1). destruct (body s1) as [[o s2]|]; [|exact I].
    assert (G : o = ONormal \/ o = OContinue -> oframe P (fst s) (let '(ok, s) := step s2 in if ok then loop n cond body step s else Some (OBad, s))).
    { intros O. assert (F : frame P (fst s) (fst s2)).
      { eapply frame_trans; [exact HC|]. destruct O as [-> | ->]; cbn in HB; (eapply frame_weak; [|exact HB]); intros x [E|E]; congruence || assumption. }
      specialize (HS s2). destruct (step s2) as [ok s3]. destruct ok; [|exact I]. eapply oframe_pre; [|apply IH]. eapply frame_trans; [exact F|exact HS]. }
    destruct o; try (apply G; auto; fail); cbn [oframe] in *.
    + eapply frame_trans; [eapply frame_weak; [|exact HC]; intros x; now right|]. eapply frame_weak; [|exact HB]. intros x [E|E]; [discriminate|now right].
    + eapply frame_trans; [eapply frame_weak; [|exact HC]; intros x; now right|]. exact HB.
    + exact I.
  - cbn. eapply frame_weak; [|exact HC]. intros x; now right.
  - exact I.
Qed.
Lemma deferred_frame (P : nat -> Prop) ds : (forall e, In e ds -> forall x, In x (moved_in false e) \/ In x (assigned_in e) -> P x) ->
  forall o s, frame P (fst s) (fst (snd (run_deferred ds o s))).
Proof.
  induction ds as [|e ds IH]; intros H o s; cbn [run_deferred]; [apply frame_refl|].
  pose proof (proj1 eval_frame e false s P (H e (or_introl eq_refl))) as F. destruct (eval false e s) as [ok s1]. destruct ok; [|exact F].
  eapply frame_trans; [exact F|]. apply IH. intros e' I. apply H. now right.
Qed.
Lemma run_deferred_out ds o s : fst (run_deferred ds o s) = o \/ fst (run_deferred ds o s) = OBad.
Proof. revert s. induction ds as [|e ds IH]; intros s; cbn [run_deferred]; [now left|]. destruct (eval false e s) as [[] s1]; [apply IH|now right]. Qed.
(* leaving a block *)
Definition base (size : nat) (r : list var) : list var := skipn (length r - size) r.
Lemma finish_frame (P : nat -> Prop) ds size r res : size <= length r ->
  (forall e, In e ds -> forall x, In x (moved_in false e) \/ In x (assigned_in e) -> P x) ->
  oframe P r res -> oframe P (base size r) (finish ds size res).
Proof.
  intros L D F. destruct res as [[o s]|]; [|exact I].
  assert (G : o <> OBad -> oframe P (base size r) (let '(o0, s0) := run_deferred ds o s in Some (o0, leave size s0))).
  { intros NB. pose proof (deferred_frame P ds D o s) as F2. pose proof (run_deferred_out ds o s) as O. destruct (run_deferred ds o s) as [o2 s2]. cbn [fst snd] in *.
    destruct O as [-> | ->]; [|exact I]. assert (F3 : frame (after o P) r (fst s2)).
    { eapply frame_trans; [|eapply frame_weak; [|exact F2]; intros x; now right]. destruct o; cbn in F; auto. now destruct NB. }
    assert (F4 : frame (after o P) (base size r) (fst (leave size s2))).
    { unfold base, leave. cbn [fst]. rewrite (frame_length _ _ _ F3). now apply frame_skipn. }
    destruct o; cbn; auto. }
  destruct o; cbn [finish]; try (apply G; discriminate). exact I.
Qed.
Lemma base_refl r : base (length r) r = r.
Proof. unfold base. now rewrite Nat.sub_diag. Qed.
Lemma base_cons size v r : size <= length r -> base size (v :: r) = base size r.
Proof. intros L. unfold base. cbn [length]. replace (S (length r) - size) with (S (length r - size)) by lia. reflexivity. Qed.
Lemma frame_base P size a b : frame P a b -> frame P (base size a) (base size b).
Proof. intros F. unfold base. rewrite (frame_length _ _ _ F). now apply frame_skipn. Qed.
Lemma exec_frame :
  (forall t n s (P : nat -> Prop), (forall x, In x (moved_s t) \/ In x (assigned_s t) -> P x) -> oframe P (fst s) (exec n t s))
  /\ (forall l n ds size s (P : nat -> Prop), size <= length (fst s) -> (forall x, In x (moved_l l) \/ In x (assigned_l l) -> P x) ->
       (forall e, In e ds -> forall x, In x (moved_in false e) \/ In x (assigned_in e) -> P x) -> oframe P (base size (fst s)) (execs n l ds size s))
  /\ (forall cs n s (P : nat -> Prop), (forall x, In x (moved_c cs) \/ In x (assigned_c cs) -> P x) -> oframe P (fst s) (execc n cs s)).
Proof.
  assert (EV : forall e m s (P : nat -> Prop), (forall x, In x (moved_in m e) \/ In x (assigned_in e) -> P x) -> frame P (fst s) (fst (snd (eval m e s)))) by apply eval_frame.
  apply s_ind; cbn [moved_s moved_l moved_c assigned_s assigned_l assigned_c exec execs execc].
  - intros e n s P H. specialize (EV e false s P H). destruct (eval false e s) as [[] s1]; cbn in *; [|exact I]. eapply frame_weak; [|exact EV]. intros x; now right.
  - intros l IH n s P H. rewrite <- (base_refl (fst s)) at 1. apply IH; auto. intros e [].
  - intros c t IH n s P H. pose proof (test_frame c s P ltac:(intros x X; apply H; rewrite !in_app_iff; tauto)) as F. destruct (test c s) as [[[]|] s1]; cbn [fst snd] in F.
    + eapply oframe_pre; [exact F|]. apply IH. intros x X; apply H; rewrite !in_app_iff; tauto.
    + cbn. eapply frame_weak; [|exact F]. intros x; now right.
    + exact I.
  - intros c t IHt e IHe n s P H. pose proof (test_frame c s P ltac:(intros x X; apply H; rewrite !in_app_iff; tauto)) as F. destruct (test c s) as [[[]|] s1]; cbn [fst snd] in F.
    + eapply oframe_pre; [exact F|]. apply IHt. intros x X; apply H; rewrite !in_app_iff; tauto.
    + eapply oframe_pre; [exact F|]. apply IHe. intros x X; apply H; rewrite !in_app_iff; tauto.
    + exact I.
  - intros e cs IH n s P H. specialize (EV e false s P ltac:(intros x X; apply H; rewrite !in_app_iff; tauto)). destruct (eval false e s) as [[] s1]; [|exact I].
    eapply oframe_pre; [exact EV|]. apply IH. intros x X; apply H; rewrite !in_app_iff; tauto.
  - intros c t IH n s P H. pose proof (test_frame c s P ltac:(intros x X; apply H; rewrite !in_app_iff; tauto)) as F. destruct (test c s) as [[[]|] s1]; cbn [fst snd] in F.
    + cbn. eapply frame_weak; [|exact F]. intros x; now right.
    + eapply oframe_pre; [exact F|]. apply IH. intros x X; apply H; rewrite !in_app_iff; tauto.
    + exact I.
  - intros c b IH n s P H. apply loop_frame.
    + intros s1. apply test_frame. intros x X; apply H; rewrite !in_app_iff; tauto.
    + intros s1. apply IH. intros x X; apply H; rewrite !in_app_iff; tauto.
    + intros s1. apply frame_refl.
  - intros x t i c step b IH n s P H. specialize (EV i true s P ltac:(intros y Y; apply H; rewrite !in_app_iff; tauto)) as F0. destruct (eval true i s) as [ok s0]. destruct ok; [|exact I]. cbn [fst snd] in F0.
    assert (L : forall s1, oframe P (fst s1) (loop n (test c) (exec n b) (eval false step) s1)).
    { apply loop_frame.
      + intros s1. apply test_frame. intros y Y; apply H; rewrite !in_app_iff; tauto.
      + intros s1. apply IH. intros y Y; apply H; rewrite !in_app_iff; tauto.
      + intros s1. apply EV. intros y Y; apply H; rewrite !in_app_iff; tauto. }
    specialize (L (bind_var x (is_owned t) s0)). destruct (loop n (test c) (exec n b) (eval false step) (bind_var x (is_owned t) s0)) as [[o s1]|]; [|exact I].
    assert (G : o <> OBad -> frame (after o P) (fst s) (fst (leave (length (fst s)) s1))).
    { intros NB. assert (F : frame (after o P) (fst (bind_var x (is_owned t) s0)) (fst s1)) by (destruct o; auto; now destruct NB).
      apply (frame_base _ (length (fst s))) in F. cbn [bind_var fst] in F. rewrite base_cons in F by (rewrite (frame_length _ _ _ F0); lia).
      eapply frame_trans; [eapply frame_weak; [|exact F0]; intros y; now right|]. rewrite <- (base_refl (fst s0)), (frame_length _ _ _ F0). exact F. }
    destruct o; cbn; auto; apply G; discriminate.
  - intros b IH n s P H. apply loop_frame.
    + intros s1. apply frame_refl.
    + intros s1. apply IH, H.
    + intros s1. apply frame_refl.
  - intros b IH c n s P H. assert (HB : forall s, oframe P (fst s) (exec n b s)) by (intros s1; apply IH; intros x X; apply H; rewrite !in_app_iff; tauto).
    assert (L : forall s, oframe P (fst s) (loop n (test c) (exec n b) no_step s)).
    { intros s1. apply loop_frame; [|apply HB|intros s2; apply frame_refl]. intros s2. apply test_frame. intros x X; apply H; rewrite !in_app_iff; tauto. }
    specialize (HB s). destruct (exec n b s) as [[[] s1]|]; cbn in *; auto.
    + eapply oframe_pre; [|apply L]. eapply frame_weak; [|exact HB]. intros x [E|E]; [discriminate|exact E].
    + eapply frame_weak; [|exact HB]. intros x [E|E]; [discriminate|now right].
    + eapply oframe_pre; [|apply L]. eapply frame_weak; [|exact HB]. intros x [E|E]; [discriminate|exact E].
  - intros x b IH n s P H. 
    assert (L : forall s1, oframe P (fst s1) (loop n choice (fun s => exec n b s) no_step s1)).
    { apply loop_frame.
      + intros s1. unfold choice. pose proof (toss_fst s1) as T. destruct (toss s1). cbn in *. rewrite T. apply frame_refl.
      + intros s1. apply IH, H.
      + intros s1. apply frame_refl. }
    specialize (L (bind_var x false s)). destruct (loop n choice (fun s => exec n b s) no_step (bind_var x false s)) as [[o s1]|]; [|exact I].
    assert (G : o <> OBad -> frame (after o P) (fst s) (fst (leave (length (fst s)) s1))).
    { intros NB. assert (F : frame (after o P) (fst (bind_var x false s)) (fst s1)) by (destruct o; auto; now destruct NB).
      apply (frame_base _ (length (fst s))) in F. cbn [bind_var fst] in F. rewrite base_cons, base_refl in F by lia. exact F. }
    destruct o; cbn; auto; apply G; discriminate.
  - intros e n s P H. specialize (EV e true s (fun _ => True) (fun _ _ => I)). destruct (eval true e s) as [[] s1]; cbn in *; [|exact I]. eapply frame_weak; [|exact EV]. intros x _. now left.
  - intros. apply frame_refl.
  - intros. apply frame_refl.
  - intros n ds size s P L H D. apply finish_frame with (res := Some (ONormal, s)); auto. apply frame_refl.
  - intros t IHt l IHl n ds size s P L H D. specialize (IHt n s P ltac:(intros x X; apply H; rewrite !in_app_iff; tauto)).
    destruct (exec n t s) as [[o s1]|]; [|exact I].
    assert (NN : o <> ONormal -> oframe P (base size (fst s)) (finish ds size (Some (o, s1)))) by (intros _; now apply finish_frame).
    destruct o; try (apply NN; discriminate). cbn in IHt.
    assert (F : frame P (fst s) (fst s1)) by (eapply frame_weak; [|exact IHt]; intros x [E|E]; [discriminate|exact E]).
    eapply oframe_pre; [apply frame_base; exact F|]. apply IHl; auto; [now rewrite (frame_length _ _ _ F)|]. intros x X; apply H; rewrite !in_app_iff; tauto.
  - intros x t e l IHl n ds size s P L H D. specialize (EV e true s P ltac:(intros y Y; apply H; rewrite !in_app_iff; tauto)). destruct (eval true e s) as [[] s1]; [|exact I]. cbn [fst snd] in EV.
    eapply oframe_pre; [apply frame_base; exact EV|]. assert (L1 : size <= length (fst s1)) by now rewrite (frame_length _ _ _ EV).
    specialize (IHl n ds size (bind_var x (is_owned t) s1) P). cbn [bind_var fst] in IHl. rewrite base_cons in IHl by exact L1. apply IHl; auto; [cbn; lia|].
    intros y Y; apply H; rewrite !in_app_iff; tauto.
  - intros e l IHl n ds size s P L H D. apply IHl; auto.
    + intros x X; apply H; rewrite !in_app_iff; tauto.
    + intros e' [<-|I] x X; [apply H; rewrite !in_app_iff; tauto|now apply (D e')].
  - intros n s P H. apply frame_refl.
  - intros d b IHb cs IHc n s P H. assert (HB : forall s, oframe P (fst s) (exec n b s)) by (intros s1; apply IHb; intros x X; apply H; rewrite !in_app_iff; tauto).
    destruct d; [apply HB|]. pose proof (toss_fst s) as T. destruct (toss s) as [t s1]. cbn in T. rewrite <- T. destruct t; [apply HB|]. apply IHc. intros x X; apply H; rewrite !in_app_iff; tauto.
Qed.

(** ** The checker against runs *)
Definition agrees (m : mstate) (b : nat * ty) (v : var) : Prop :=
  name v = fst b /\ owned v = is_owned (snd b) /\ (owned v = true -> gone v = true -> snd b = TOwned /\ get_status m (fst b) = Moved).
Definition sim (env : senv) (m : mstate) (r : list var) : Prop := Forall2 (agrees m) env r.
Definition uniq (env : senv) : Prop := NoDup (map fst env).
Lemma lookup_in env x t : uniq env -> In (x, t) env -> lookup env x = Some t.
Proof.
  unfold uniq. induction env as [|[y u] env IH]; intros U I; [destruct I|]. cbn in U. inversion U as [|? ? N U']; subst. cbn [lookup]. destruct I as [E|I].
  - injection E as -> ->. now rewrite Nat.eqb_refl.
  - destruct (Nat.eqb_spec y x) as [->|_]; [|now apply IH]. destruct N. now apply (in_map fst) in I.
Qed.
Lemma lookup_none env x : lookup env x = None -> ~ In x (map fst env).
Proof.
  induction env as [|[y u] env IH]; cbn; [auto|]. destruct (Nat.eqb_spec y x) as [->|N]; [discriminate|]. intros H [E|I]; [congruence|now apply IH].
Qed.
Lemma uniq_cons env x t : uniq env -> new_name env x -> uniq ((x, t) :: env).
Proof. intros U N. unfold uniq. cbn. constructor; [now apply lookup_none|assumption]. Qed.

Lemma dead_sim env m r x : sim env m r -> dead r x = true -> lookup env x = Some TOwned /\ get_status m x = Moved.
Proof.
  intros S. induction S as [|[y t] v env r (A1 & A2 & A3) S IH]; cbn [dead lookup]; [discriminate|]. cbn [fst snd] in *. rewrite A1. 
  destruct (Nat.eqb_spec y x) as [->|N]; [|exact IH]. intros D. apply andb_prop in D as [D1 D2]. destruct (A3 D1 D2) as [-> ?]. auto.
Qed.
(* only what happens to visible variables that are not Copy matters *)
Lemma sim_mono env m m' r : uniq env -> sim env m r -> (forall x, lookup env x = Some TOwned -> get_status m x = Moved -> get_status m' x = Moved) -> sim env m' r.
Proof.
  intros U S H. assert (G : forall b, In b env -> snd b = TOwned -> get_status m (fst b) = Moved -> get_status m' (fst b) = Moved).
  { intros [x t] I E M. cbn in *. subst. apply H; [now apply lookup_in|assumption]. }
  clear U H. induction S as [|b v env r (A1 & A2 & A3) S IH]; constructor.
  - repeat split; auto; destruct (A3 ltac:(assumption) ltac:(assumption)) as [B1 B2]; [assumption|]. apply G; auto. now left.
  - apply IH. intros b' I. apply G. now right.
Qed.
Lemma sim_frame env m r r' (P : nat -> Prop) : uniq env -> sim env m r -> frame P r r' ->
  (forall x, P x -> lookup env x = None \/ lookup env x = Some TCopy \/ (lookup env x = Some TOwned /\ get_status m x = Moved)) -> sim env m r'.
Proof.
  intros U S F H. assert (G : forall b, In b env -> P (fst b) -> snd b = TCopy \/ (snd b = TOwned /\ get_status m (fst b) = Moved)).
  { intros [x t] I Px. cbn in *. apply H in Px. rewrite (lookup_in _ _ _ U I) in Px. destruct Px as [Px|[Px|[Px ?]]]; [congruence|left; congruence|right; split; [congruence|assumption]]. }
  clear U H. revert r' F. induction S as [|b v env r (A1 & A2 & A3) S IH]; intros r' F; inversion F as [|? v' ? r2 (B1 & B2 & B3) F']; subst; constructor.
  - split; [congruence|]. split; [congruence|]. intros O Q. rewrite B2 in O. destruct B3 as [B3|B3]; [|apply A3; congruence].
    rewrite A1 in B3. apply G in B3; [|now left]. destruct B3 as [B3|B3]; [|exact B3]. rewrite A2, B3 in O. discriminate.
  - apply IH; [|assumption]. intros b' I. apply G. now right.
Qed.
Lemma move_sim env m b r x : uniq env -> sim env m r -> lookup env x <> Some TUnseen -> sim env (fst (move_var env x (m, b))) (move r x).
Proof.
  intros U S N. assert (F : frame (eq x) r (move r x)) by now apply frame_move. unfold move_var. destruct (lookup env x) as [[]|] eqn:L; [| |congruence|]; cbn [fst].
  - apply (sim_frame env m r _ (eq x) U S F). intros y <-. now right; left.
  - apply (sim_frame env _ r _ (eq x) U); [|exact F|].
    + apply (sim_mono env m); auto. intros y _ E. rewrite status_mark. now destruct (x =? y).
    + intros y <-. right; right. split; [assumption|]. rewrite status_mark. now rewrite Nat.eqb_refl.
  - apply (sim_frame env m r _ (eq x) U S F). intros y <-. now left.
Qed.
Lemma sim_names env m m' r : sim env m r -> (forall x, In x (map fst env) -> get_status m x = Moved -> get_status m' x = Moved) -> sim env m' r.
Proof.
  intros S. induction S as [|b v env r (A1 & A2 & A3) S IH]; intros H; constructor.
  - split; [assumption|]. split; [assumption|]. intros O G. destruct (A3 O G) as [B1 B2]. split; [assumption|]. apply H; [now left|assumption].
  - apply IH. intros x I. apply H. now right.
Qed.
Lemma revive_sim env m b r x : uniq env -> sim env m r -> sim env (fst (revive_var env x (m, b))) (revive r x).
Proof.
  intros U S. unfold revive_var. cbn [fst].
  assert (NO : forall e q, sim e m q -> ~ In x (map fst e) -> sim e (mark m x Valid) q /\ revive q x = q).
  { intros e q Q NI. split.
    - apply (sim_names e m); auto. intros y I E. rewrite status_mark. destruct (Nat.eqb_spec x y) as [->|_]; [contradiction|assumption].
    - clear -Q NI. induction Q as [|c v e q (A1 & A2 & A3) Q IH]; [reflexivity|]. cbn in *. destruct (Nat.eqb_spec (name v) x) as [E|E]; [destruct NI; left; congruence|]. f_equal. tauto. }
  destruct (lookup env x) as [t|] eqn:L.
  - cbn [fst]. clear L. revert U. induction S as [|c v env r (A1 & A2 & A3) S IH]; intros U; cbn [revive]; [constructor|]. unfold uniq in U. cbn in U. inversion U as [|? ? N U']; subst.
    destruct (Nat.eqb_spec (name v) x) as [E|E].
    + constructor; [|apply NO; [assumption|congruence]]. repeat split; cbn; auto; discriminate.
    + constructor; [|now apply IH]. split; [assumption|]. split; [assumption|]. intros O G. destruct (A3 O G) as [B1 B2]. split; [assumption|].
      rewrite status_mark. destruct (Nat.eqb_spec x (fst c)); [congruence|assumption].
  - cbn [fst]. apply lookup_none in L. destruct (NO env r S L) as [_ ->]. exact S.
Qed.

(** Expressions that only mention Copy variables *)
Definition plain_name (r : list var) (x : nat) : Prop := forall r', frame (fun _ => True) r r' -> dead r' x = false.
Lemma plain_frame r r' x : frame (fun _ => True) r r' -> plain_name r x -> plain_name r' x.
Proof. intros F H r2 F2. apply H. eapply frame_trans; eauto. Qed.
Lemma frame_true P r r' : frame P r r' -> frame (fun _ => True) r r'.
Proof. apply frame_weak. auto. Qed.
Lemma sim_plain env m r x : sim env m r -> lookup env x = None \/ lookup env x = Some TCopy -> plain_name r x.
Proof.
  intros S. induction S as [|[y t] v env r (A1 & A2 & A3) S IH]; intros L r' F; inversion F as [|? v' ? r2 (B1 & B2 & _) F']; subst; [reflexivity|]. cbn [dead lookup fst snd] in *.
  rewrite B1, A1. destruct (Nat.eqb_spec y x) as [->|N].
  - destruct L as [L|L]; [discriminate|]. injection L as ->. rewrite B2, A2. reflexivity.
  - now apply IH.
Qed.
Lemma moved_names : (forall e m x, In x (moved_in m e) \/ In x (assigned_in e) -> In x (names e)) /\ (forall es m x, In x (moved_ins m es) \/ In x (assigned_ins es) -> In x (namess es)).
Proof.
  apply e_ind; cbn [moved_in moved_ins assigned_in assigned_ins names namess]; intros; rewrite ?in_app_iff in *.
  - tauto.
  - destruct m; cbn in *; tauto.
  - now apply (H false).
  - now apply (H true).
  - now apply (H true).
  - cbn [In] in *. destruct H0 as [H0|[H0|H0]]; [right; apply (H true); now left|now left|right; apply (H true); now right].
  - specialize (H false x). specialize (H0 true x). tauto.
  - specialize (H false x). specialize (H0 m x). specialize (H1 m x). tauto.
  - specialize (H false x). specialize (H0 false x). tauto.
  - tauto.
  - specialize (H m x). specialize (H0 m x). tauto.
Qed.
Lemma plain_ok : (forall e m s, (forall x, In x (names e) -> plain_name (fst s) x) -> fst (eval m e s) = true)
  /\ (forall es m s, (forall x, In x (namess es) -> plain_name (fst s) x) -> fst (evals m es s) = true).
Proof.
  assert (EV : forall e m s, frame (fun _ => True) (fst s) (fst (snd (eval m e s)))) by (intros e m s; apply eval_frame; auto).
  apply e_ind; cbn [names namess eval evals]; intros.
  - reflexivity.
  - rewrite (H x (or_introl eq_refl) (fst s) (frame_refl _ _)). reflexivity.
  - now apply H.
  - now apply H.
  - now apply H.
  - specialize (H true s). destruct (eval true e s) as [ok s1]. cbn in H. rewrite H; [reflexivity|]. intros y Y. apply H0. now right.
  - specialize (H false s). specialize (EV l false s). destruct (eval false l s) as [ok s1]. cbn [fst snd] in *. rewrite H; [|intros y Y; apply H1; rewrite in_app_iff; tauto].
    apply H0. intros y Y. apply (plain_frame (fst s)); [assumption|]. apply H1; rewrite in_app_iff; tauto.
  - specialize (H false s). specialize (EV c false s). destruct (eval false c s) as [ok s1]. cbn [fst snd] in *. rewrite H; [|intros y Y; apply H2; rewrite !in_app_iff; tauto].
    pose proof (toss_fst s1) as T. destruct (toss s1) as [t s2]. cbn in T. rewrite <- T in EV. destruct t; [apply H0|apply H1]; intros y Y; (apply (plain_frame (fst s)); [assumption|]; apply H2; rewrite !in_app_iff; tauto).
  - specialize (H false s). specialize (EV a false s). destruct (eval false a s) as [ok s1]. cbn [fst snd] in *. rewrite H; [|intros y Y; apply H1; rewrite !in_app_iff; tauto].
    pose proof (toss_fst s1) as T. destruct (toss s1) as [t s2]. cbn in T. rewrite <- T in EV. destruct t; [apply H0|reflexivity]; intros y Y; (apply (plain_frame (fst s)); [assumption|]; apply H1; rewrite !in_app_iff; tauto).
  - reflexivity.
  - specialize (H m s). specialize (EV e m s). destruct (eval m e s) as [ok s1]. cbn [fst snd] in *. rewrite H; [|intros y Y; apply H1; rewrite !in_app_iff; tauto].
    apply H0. intros y Y. apply (plain_frame (fst s)); [assumption|]. apply H1; rewrite !in_app_iff; tauto.
Qed.

(** ** Expressions *)
Definition taken (p : place) : bool := match p with Used => false | _ => true end.
Definition settle (env : senv) (p : place) (e : expr) (c : ckd) : ckd := match p with Tracked => move_rvalue env e c | _ => c end.
Definition good_run (env : senv) (m : mstate) (res : bool * st) : Prop := fst res = true /\ sim env m (fst (snd res)).
Definition only (env : senv) (x : nat) : Prop := lookup env x = None \/ lookup env x = Some TCopy.
Lemma only_keep env l x : only_copy env l -> lookup env x = Some TOwned -> ~ In x l.
Proof. intros O L I. destruct (O x I); congruence. Qed.
(* sub-checks by parts that do not assign *)
Lemma sim_keep env c c' r l : uniq env -> only_copy env l -> (forall x, ~ In x l -> keeps x c c') -> sim env (fst c) r -> sim env (fst c') r.
Proof. intros U O K S. apply (sim_mono env (fst c)); auto. intros x L M. apply (K x); [|assumption]. now apply (only_keep env). Qed.
Lemma ok_rvalue env e c : snd (move_rvalue env e c) = snd c.
Proof. unfold move_rvalue, move_var. destruct e; try reflexivity. now destruct (lookup env x) as [[]|]. Qed.
Lemma expr_ok :
  (forall e env p m b r ch, uniq env -> fine env p e -> sim env m r -> snd (check_expr env false e (m, b)) = true ->
     good_run env (fst (settle env p e (check_expr env false e (m, b)))) (eval (taken p) e (r, ch)))
  /\ (forall es env p m b r ch, uniq env -> fines env p es -> sim env m r ->
     snd (check_exprs env false (match p with Tracked => true | _ => false end) es (m, b)) = true ->
     good_run env (fst (check_exprs env false (match p with Tracked => true | _ => false end) es (m, b))) (evals (taken p) es (r, ch))).
Proof.
  apply e_ind.
  - intros env p m b r ch U F S K. cbn. split; [reflexivity|]. destruct p; exact S.
  - intros x env p m b r ch U F S K. cbn [eval]. cbn [fst].
    destruct (dead r x) eqn:D.
    + exfalso. apply (dead_sim env m) in D as [L M]; [|assumption]. cbn in K. rewrite L, M in K. cbn in K. rewrite andb_false_r in K. discriminate.
    + assert (CU : exists b', check_expr env false (EVar x) (m, b) = (m, b')) by (cbn [check_expr check_use]; destruct (lookup env x); eauto). destruct CU as [b' ->].
      split; [reflexivity|]. destruct p; cbn [taken settle fst snd move_rvalue].
      * exact S.
      * now apply move_sim.
      * apply (sim_frame env m r _ (eq x) U S); [now apply frame_move|]. intros y <-. cbn in F. destruct (F x (or_introl eq_refl)); tauto.
  - intros es IH env p m b r ch U F S K. cbn [eval]. change (check_expr env false (EOp es) (m, b)) with (check_exprs env false false es (m, b)) in *.
    replace (settle env p (EOp es) (check_exprs env false false es (m, b))) with (check_exprs env false false es (m, b)) by now destruct p. exact (IH env Used m b r ch U F S K).
  - intros es IH env p m b r ch U F S K. cbn [eval]. change (check_expr env false (ECall es) (m, b)) with (check_exprs env false true es (m, b)) in *.
    replace (settle env p (ECall es) (check_exprs env false true es (m, b))) with (check_exprs env false true es (m, b)) by now destruct p. exact (IH env Tracked m b r ch U F S K).
  - intros es IH env p m b r ch U F S K. cbn [eval]. change (check_expr env false (EArray es) (m, b)) with (check_exprs env false false es (m, b)) in *.
    replace (settle env p (EArray es) (check_exprs env false false es (m, b))) with (check_exprs env false false es (m, b)) by now destruct p. exact (IH env Untracked m b r ch U F S K).
  - intros x e IH env p m b r ch U F S K. cbn [check_expr] in *. rewrite ok_revive, ok_rvalue in K. specialize (IH env Tracked m b r ch U F S K). cbn [taken settle] in IH. cbn [eval].
    destruct (eval true e (r, ch)) as [ok s1]. destruct IH as [E S1]. cbn [fst snd] in *. subst ok.
    assert (G : sim env (fst (revive_var env x (move_rvalue env e (check_expr env false e (m, b))))) (revive (fst s1) x)).
    { destruct (move_rvalue env e (check_expr env false e (m, b))) as [m2 b2]. now apply revive_sim. }
    split; [reflexivity|]. destruct p; exact G.
  - intros l IHl e IHe env p m b r ch U (F1 & F2 & F3) S K. cbn [check_expr] in *. cbn [eval].
    replace (settle env p (EAssignTo l e) (move_rvalue env e (check_expr env false e (check_expr env true l (m, b))))) with (move_rvalue env e (check_expr env false e (check_expr env true l (m, b)))) by now destruct p.
    rewrite ok_rvalue in K. pose proof (proj1 eval_frame l false (r, ch) (fun x => In x (names l)) ltac:(apply moved_names)) as FR.
    pose proof (proj1 plain_ok l false (r, ch)) as OKL. destruct (eval false l (r, ch)) as [ok s1]. cbn [fst snd] in *.
    rewrite OKL by (intros x X; apply (sim_plain env m); auto; now apply F2).
    assert (S1 : sim env m (fst s1)) by (apply (sim_frame env m r _ _ U S FR); intros x X; destruct (F2 x X); tauto).
    assert (S2 : sim env (fst (check_expr env true l (m, b))) (fst s1)).
    { apply (sim_keep env (m, b) _ _ (names l)); auto. intros x X. apply keeps_expr. intros Y. apply X. apply moved_names with (m := false). now right. }
    destruct (check_expr env true l (m, b)) as [m1 b1]. cbn [fst] in S2. destruct s1 as [r1 ch1]. exact (IHe env Tracked m1 b1 r1 ch1 U F3 S2 K).
  - intros c IHc x IHx y IHy env p m b r ch U (F1 & F2 & F3 & F4) S K. cbn [check_expr] in *. cbn [eval].
    set (q := match p with Used => Used | _ => Untracked end) in *.
    assert (ES : forall e c, settle env q e c = c) by (intros; unfold q; now destruct p).
    replace (settle env p (ECond c x y) _) with (check_expr env false y (check_expr env false x (check_expr env false c (m, b)))) by now destruct p.
    replace (taken p) with (taken q) by (unfold q; now destruct p).
    pose proof (proj1 ok_expr y env false _ K) as K2. pose proof (proj1 ok_expr x env false _ K2) as K1.
    specialize (IHc env Used m b r ch U F1 S K1). cbn [taken settle] in IHc. destruct (eval false c (r, ch)) as [ok s1]. destruct IHc as [E S1]. cbn [fst snd] in *. subst ok.
    pose proof (toss_fst s1) as T. destruct (toss s1) as [t [r2 ch2]]. cbn [fst snd] in T. subst r2.
    destruct (check_expr env false c (m, b)) as [m1 b1] eqn:EC. cbn [fst] in S1.
    assert (OA : only_copy env (assigned_in x)) by (intros z Z; apply F4; rewrite in_app_iff; tauto).
    assert (OB : only_copy env (assigned_in y)) by (intros z Z; apply F4; rewrite in_app_iff; tauto).
    destruct t.
    + specialize (IHx env q m1 b1 (fst s1) ch2 U F2 S1 K2). rewrite ES in IHx. destruct IHx as [E S2]. split; [exact E|].
      apply (sim_keep env (check_expr env false x (m1, b1)) _ _ (assigned_in y)); auto. intros z Z. now apply keeps_expr.
    + assert (S2 : sim env (fst (check_expr env false x (m1, b1))) (fst s1)).
      { apply (sim_keep env (m1, b1) _ _ (assigned_in x)); auto. intros z Z. now apply keeps_expr. }
      destruct (check_expr env false x (m1, b1)) as [m2 b2]. specialize (IHy env q m2 b2 (fst s1) ch2 U F3 S2 K). rewrite ES in IHy. exact IHy.
  - intros x IHx y IHy env p m b r ch U (F1 & F2 & F3) S K. cbn [check_expr] in *. cbn [eval].
    replace (settle env p (ELogic x y) _) with (check_expr env false y (check_expr env false x (m, b))) by now destruct p.
    pose proof (proj1 ok_expr y env false _ K) as K1.
    specialize (IHx env Used m b r ch U F1 S K1). cbn [taken settle] in IHx. destruct (eval false x (r, ch)) as [ok s1]. destruct IHx as [E S1]. cbn [fst snd] in *. subst ok.
    pose proof (toss_fst s1) as T. destruct (toss s1) as [t [r2 ch2]]. cbn [fst snd] in T. subst r2.
    destruct (check_expr env false x (m, b)) as [m1 b1] eqn:EC. cbn [fst] in S1. destruct t.
    + exact (IHy env Used m1 b1 (fst s1) ch2 U F2 S1 K).
    + split; [reflexivity|]. cbn [fst snd]. apply (sim_keep env (m1, b1) _ _ (assigned_in y)); auto. intros z Z. now apply keeps_expr.
  - intros env p m b r ch U F S K. split; [reflexivity|exact S].
  - intros e IHe es IHes env p m b r ch U (F1 & F2) S K. cbn [check_exprs] in *. cbn [evals].
    assert (ES : (if match p with Tracked => true | _ => false end then move_rvalue env e (check_expr env false e (m, b)) else check_expr env false e (m, b)) = settle env p e (check_expr env false e (m, b))) by now destruct p.
    rewrite ES in *. pose proof (proj2 ok_expr es env false _ _ K) as K1. assert (K0 : snd (check_expr env false e (m, b)) = true) by (destruct p; cbn [settle] in K1; rewrite ?ok_rvalue in K1; exact K1).
    specialize (IHe env p m b r ch U F1 S K0). destruct (eval (taken p) e (r, ch)) as [ok [r1 ch1]]. destruct IHe as [E S1]. cbn [fst snd] in *. subst ok.
    destruct (settle env p e (check_expr env false e (m, b))) as [m1 b1]. exact (IHes env p m1 b1 r1 ch1 U F2 S1 K).
Qed.
Lemma init_ok env e m b r ch : uniq env -> fine env Tracked e -> sim env m r -> snd (check_init env e (m, b)) = true ->
  good_run env (fst (check_init env e (m, b))) (eval true e (r, ch)).
Proof. intros U F S K. unfold check_init in *. rewrite ok_rvalue in K. exact (proj1 expr_ok e env Tracked m b r ch U F S K). Qed.
Lemma plain_run env e m b r ch : uniq env -> fine env Used e -> sim env m r -> snd (check_plain env e (m, b)) = true ->
  good_run env (fst (check_plain env e (m, b))) (eval false e (r, ch)).
Proof. intros U F S K. exact (proj1 expr_ok e env Used m b r ch U F S K). Qed.
Lemma test_ok env e m b r ch : uniq env -> fine env Used e -> sim env m r -> snd (check_plain env e (m, b)) = true ->
  exists t s, test e (r, ch) = (Some t, s) /\ sim env (fst (check_plain env e (m, b))) (fst s).
Proof.
  intros U F S K. pose proof (plain_run env e m b r ch U F S K) as [E S1]. unfold test. destruct (eval false e (r, ch)) as [ok s1]. cbn [fst snd] in *. subst ok.
  pose proof (toss_fst s1) as T. destruct (toss s1) as [t s2]. cbn in T. exists t, s2. split; [reflexivity|]. now rewrite T.
Qed.
Lemma consume_same : forall e s, fst (eval true e s) = fst (eval false e s).
Proof.
  assert (G : (forall e s, fst (eval true e s) = fst (eval false e s)) /\ (forall es : exprs, True)); [|apply G].
  apply e_ind; intros; auto.
  - cbn. now destruct (dead (fst s) x).
  - cbn [eval]. destruct (eval false c s) as [[] s1]; [|reflexivity]. destruct (toss s1) as [[] s2]; auto.
Qed.

(** ** Statements *)
Lemma Forall2_len {A B} (R : A -> B -> Prop) l m : Forall2 R l m -> length l = length m.
Proof. induction 1; cbn; congruence. Qed.
Lemma Forall2_snoc {A B} (R : A -> B -> Prop) l m a b : Forall2 R l m -> R a b -> Forall2 R (l ++ [a]) (m ++ [b]).
Proof. intros F H. induction F; cbn; constructor; auto. Qed.
Lemma Forall2_rev_of {A B} (R : A -> B -> Prop) l m : Forall2 R l m -> Forall2 R (rev l) (rev m).
Proof. induction 1; cbn; [constructor|]. now apply Forall2_snoc. Qed.
Definition good_out (env : senv) (m : mstate) (res : option (outcome * st)) : Prop :=
  match res with Some (OBad, _) => False | Some (ONormal, s) => sim env m (fst s) | _ => True end.
Lemma good_mono env m m' res : uniq env -> (forall x, lookup env x = Some TOwned -> get_status m x = Moved -> get_status m' x = Moved) -> good_out env m res -> good_out env m' res.
Proof. intros U H. destruct res as [[[] s]|]; cbn; auto. intros S. now apply (sim_mono env m). Qed.
Lemma loop_ok (P : nat -> Prop) (Q : st -> Prop) cond body step :
  (forall s s', Q s -> frame P (fst s) (fst s') -> Q s') ->
  (forall s, frame P (fst s) (fst (snd (cond s)))) -> (forall s, oframe P (fst s) (body s)) -> (forall s, frame P (fst s) (fst (snd (step s)))) ->
  (forall s, Q s -> fst (cond s) <> None) -> (forall s, Q s -> match body s with Some (OBad, _) => False | _ => True end) -> (forall s, Q s -> fst (step s) = true) ->
  forall n s, Q s -> match loop n cond body step s with Some (OBad, _) => False | Some (ONormal, s) => Q s | _ => True end.
Proof.
  intros HQ HC HB HS OC OB OS. induction n as [|n IH]; intros s S; cbn [loop]; [exact I|]. specialize (HC s). specialize (OC s S). destruct (cond s) as [[t|] s1]; cbn [fst snd] in *; [|congruence].
  pose proof (HQ _ _ S HC) as S1. destruct t; [|exact S1]. specialize (HB s1). specialize (OB s1 S1). destruct (body s1) as [[o s2]|]; [|exact I].
  assert (G : o <> OBad -> o <> OReturn -> Q s2).
  { intros N1 N2. apply (HQ s1); [assumption|]. assert (F : frame (after o P) (fst s1) (fst s2)) by (destruct o; auto; congruence). eapply frame_weak; [|exact F]. intros x [E|E]; [congruence|exact E]. }
  assert (C : Q s2 -> match (let '(ok, s) := step s2 in if ok then loop n cond body step s else Some (OBad, s)) with Some (OBad, _) => False | Some (ONormal, s) => Q s | _ => True end).
  { intros S2. specialize (HS s2). specialize (OS s2 S2). destruct (step s2) as [ok s3]. cbn [fst snd] in *. subst ok. apply IH. now apply (HQ s2). }
  destruct o; auto; try (apply C, G; discriminate). apply G; discriminate.
Qed.
Lemma leave_sim ls env m r ch : sim (ls ++ env) m r -> sim env m (fst (leave (length env) (r, ch))).
Proof.
  intros S. unfold leave. cbn [fst]. assert (L : length r = length ls + length env) by (rewrite <- app_length; symmetry; eapply Forall2_len; exact S).
  replace (length r - length env) with (length ls) by lia. clear L. revert r S. induction ls as [|b ls IH]; intros r S; [exact S|]. inversion S; subst. cbn. now apply IH.
Qed.
Lemma deferred_ok ds o : forall s, (forall e, In e ds -> forall x, In x (names e) -> plain_name (fst s) x) -> fst (run_deferred ds o s) = o.
Proof.
  induction ds as [|e ds IH]; intros s H; cbn [run_deferred]; [reflexivity|]. pose proof (proj1 plain_ok e false s (H e (or_introl eq_refl))) as E.
  pose proof (proj1 eval_frame e false s (fun _ => True) (fun _ _ => I)) as F. destruct (eval false e s) as [ok s1]. cbn [fst snd] in *. subst ok. apply IH.
  intros e' I x X. apply (plain_frame (fst s)); [assumption|]. apply (H e'); [now right|assumption].
Qed.
Lemma finish_ok ds ls env m o s : uniq (ls ++ env) -> (forall e, In e ds -> forall x, In x (names e) -> lookup (ls ++ env) x = Some TCopy) ->
  (o = ONormal -> sim (ls ++ env) m (fst s)) -> (exists m0 r0, sim (ls ++ env) m0 r0 /\ frame (fun _ => True) r0 (fst s)) -> o <> OBad ->
  good_out env m (finish ds (length env) (Some (o, s))).
Proof.
  intros U D S (m0 & r0 & S0 & F0) N.
  assert (PL : forall e, In e ds -> forall x, In x (names e) -> plain_name (fst s) x).
  { intros e I x X. apply (plain_frame r0); [assumption|]. apply (sim_plain (ls ++ env) m0); [assumption|]. right. now apply (D e). }
  pose proof (deferred_ok ds o s PL) as E.
  pose proof (deferred_frame (fun x => lookup (ls ++ env) x = Some TCopy) ds ltac:(intros e I x X; apply (D e I); now apply moved_names with (m := false)) o s) as F.
  unfold finish. destruct (run_deferred ds o s) as [o2 s2]. cbn [fst snd] in *. subst o2.
  destruct o; cbn; auto; try congruence. specialize (S eq_refl). destruct s2 as [r2 ch2]. apply leave_sim with (ls := ls). apply (sim_frame _ m (fst s) _ _ U S F). tauto.
Qed.
Lemma stmt_ok :
  (forall t env m b r ch n, uniq env -> fine_s env t -> sim env m r -> snd (check_stmt env t (m, b)) = true -> good_out env (fst (check_stmt env t (m, b))) (exec n t (r, ch)))
  /\ (forall l ls env m b r ch n ds, uniq (ls ++ env) -> fine_l (ls ++ env) l -> sim (ls ++ env) m r -> snd (check_items (ls ++ env) l (m, b)) = true ->
        (forall e, In e ds -> forall x, In x (names e) -> lookup (ls ++ env) x = Some TCopy) ->
        good_out env (fst (check_items (ls ++ env) l (m, b))) (execs n l ds (length env) (r, ch)))
  /\ (forall cs env m b r ch n, uniq env -> fine_c env cs -> only_copy env (assigned_c cs) -> sim env m r -> snd (check_cases env cs (m, b)) = true ->
        good_out env (fst (check_cases env cs (m, b))) (execc n cs (r, ch))).
Proof.
  apply s_ind.
  - (* SExpr *) intros e env m b r ch n U F S K. cbn [check_stmt exec] in *. pose proof (plain_run env e m b r ch U F S K) as [E S1]. destruct (eval false e (r, ch)) as [ok s1]. cbn [fst snd] in *. subst ok. exact S1.
  - (* SBlock *) intros l IH env m b r ch n U F S K. cbn [check_stmt exec] in *. replace (length (fst (r, ch))) with (length env) by (eapply Forall2_len; exact S). apply (IH [] env m b r ch n []); auto. intros e [].
  - (* SIf *) intros c t IH env m b r ch n U (F1 & F2) S K. cbn [check_stmt exec] in *.
    destruct (check_plain env c (m, b)) as [m1 b1] eqn:EC. pose proof (proj1 ok_stmt t env (m1, b1)) as OK. destruct (check_stmt env t (m1, b1)) as [mt bt] eqn:ET. cbn [fst snd] in *.
    assert (K1 : b1 = true) by (apply OK; exact K).
    pose proof (test_ok env c m b r ch U F1 S) as T. rewrite EC in T. destruct (T K1) as (tt & [r1 ch1] & -> & S1). cbn [fst] in S1. destruct tt.
    + specialize (IH env m1 b1 r1 ch1 n U F2 S1). rewrite ET in IH. eapply good_mono; [exact U| |apply IH; exact K]. intros x _ M. now apply merge_left.
    + cbn [good_out fst]. apply (sim_mono env m1); auto. intros x _ M. now apply merge_keeps.
  - (* SIfElse *) intros c t IHt e IHe env m b r ch n U (F1 & F2 & F3) S K. cbn [check_stmt exec] in *.
    destruct (check_plain env c (m, b)) as [m1 b1] eqn:EC. pose proof (proj1 ok_stmt t env (m1, b1)) as OK1. destruct (check_stmt env t (m1, b1)) as [mt bt] eqn:ET.
    pose proof (proj1 ok_stmt e env (m1, bt)) as OK2. destruct (check_stmt env e (m1, bt)) as [me be] eqn:EE. cbn [fst snd] in *.
    assert (K2 : bt = true) by (apply OK2; exact K). assert (K1 : b1 = true) by (apply OK1; exact K2).
    pose proof (test_ok env c m b r ch U F1 S) as T. rewrite EC in T. destruct (T K1) as (tt & [r1 ch1] & -> & S1). cbn [fst] in S1. destruct tt.
    + specialize (IHt env m1 b1 r1 ch1 n U F2 S1). rewrite ET in IHt. eapply good_mono; [exact U| |apply IHt; exact K2]. intros x _ M. now apply merge_left.
    + specialize (IHe env m1 bt r1 ch1 n U F3 S1). rewrite EE in IHe. eapply good_mono; [exact U| |apply IHe; exact K]. intros x _ M. now apply merge_right.
  - (* SMatch *) intros e cs IH env m b r ch n U (F1 & F2 & F3) S K. cbn [check_stmt exec] in *. pose proof (proj2 (proj2 ok_stmt) cs env _ K) as K1.
    pose proof (plain_run env e m b r ch U F1 S K1) as [E S1]. destruct (eval false e (r, ch)) as [ok [r1 ch1]]. cbn [fst snd] in *. subst ok.
    destruct (check_plain env e (m, b)) as [m1 b1]. now apply IH.
  - (* SUnless *) intros c t IH env m b r ch n U (F1 & F2 & F3) S K. cbn [check_stmt exec] in *. pose proof (proj1 ok_stmt t env _ K) as K1.
    destruct (test_ok env c m b r ch U F1 S K1) as (tt & [r1 ch1] & -> & S1). cbn [fst] in S1. destruct tt.
    + cbn [good_out]. apply (sim_keep env (check_plain env c (m, b)) _ _ (assigned_s t)); auto. intros x X. now apply keeps_stmt.
    + destruct (check_plain env c (m, b)) as [m1 b1]. now apply IH.
  - (* SWhile *) intros c t IH env m b r ch n U (F1 & F2 & F3) S K. cbn [check_stmt exec] in *. pose proof (proj1 ok_stmt t env _ K) as K1.
    set (l := moved_in false c ++ moved_s t ++ assigned_in c ++ assigned_s t) in *. set (P := fun x => In x l).
    assert (IN : forall x, In x (moved_in false c) \/ In x (assigned_in c) \/ In x (moved_s t) \/ In x (assigned_s t) -> In x l) by (intros x; unfold l; rewrite !in_app_iff; tauto).
    assert (FR : forall mm r', sim env mm r -> frame P r r' -> sim env mm r') by (intros mm r' SS FF; apply (sim_frame env mm r r' P U SS FF); intros x X; destruct (F3 x X); tauto).
    assert (S1 : sim env (fst (check_plain env c (m, b))) r) by (apply (sim_keep env (m, b) _ _ l); auto; intros x X; apply keeps_plain; intros Y; apply X, IN; tauto).
    assert (S2 : sim env (fst (check_stmt env t (check_plain env c (m, b)))) r) by (apply (sim_keep env (check_plain env c (m, b)) _ _ l); auto; intros x X; apply keeps_stmt; intros Y; apply X, IN; tauto).
    pose proof (loop_ok P (fun s => frame P r (fst s)) (test c) (exec n t) no_step) as LO.
    assert (G : match loop n (test c) (exec n t) no_step (r, ch) with Some (OBad, _) => False | Some (ONormal, s) => frame P r (fst s) | _ => True end).
    { apply LO.
      - intros s s' A B. eapply frame_trans; eassumption.
      - intros s. apply test_frame. intros x X. apply IN. tauto.
      - intros s. apply exec_frame. intros x X. apply IN. tauto.
      - intros s. apply frame_refl.
      - intros [r1 ch1] Q. destruct (test_ok env c m b r1 ch1 U F1 (FR _ _ S Q) K1) as (tt & s & -> & _). discriminate.
      - intros [r1 ch1] Q. destruct (check_plain env c (m, b)) as [m1 b1]. specialize (IH env m1 b1 r1 ch1 n U F2 (FR _ _ S1 Q) K). destruct (exec n t (r1, ch1)) as [[[] ?]|]; cbn in IH; auto.
      - reflexivity.
      - apply frame_refl. }
    destruct (loop n (test c) (exec n t) no_step (r, ch)) as [[[] s]|]; cbn; auto.
  - (* SFor *) intros x ty i c step t IH env m b r ch n U (F0 & F1 & F2 & F3 & F4 & F5) S K. cbn [check_stmt exec] in *.
    set (env' := (x, ty) :: env) in *. pose proof (proj1 ok_stmt t env' _ K) as K3. pose proof (proj1 ok_expr step env' false _ K3) as K2. pose proof (proj1 ok_expr c env' false _ K2) as K1.
    assert (U' : uniq env') by now apply uniq_cons.
    pose proof (init_ok env i m b r ch U F1 S K1) as [E S0]. destruct (eval true i (r, ch)) as [ok [r0 ch0]] eqn:EI. cbn [fst snd] in *. subst ok.
    assert (LEN : length r0 = length env) by (symmetry; eapply Forall2_len; exact S0).
    assert (LEN0 : length r = length env) by (symmetry; eapply Forall2_len; exact S).
    destruct (check_init env i (m, b)) as [m0 b0]. cbn [fst snd] in *.
    set (q := {| name := x; owned := is_owned ty; gone := false |} :: r0).
    assert (SQ : sim env' m0 q) by (constructor; [repeat split; auto; discriminate|exact S0]).
    set (l := moved_in false c ++ moved_in false step ++ moved_s t ++ assigned_in c ++ assigned_in step ++ assigned_s t) in *. set (P := fun x => In x l).
    assert (IN : forall x, In x (moved_in false c) \/ In x (assigned_in c) \/ In x (moved_s t) \/ In x (assigned_s t) \/ In x (moved_in false step) \/ In x (assigned_in step) -> In x l) by (intros z; unfold l; rewrite !in_app_iff; tauto).
    assert (FR : forall mm r', sim env' mm q -> frame P q r' -> sim env' mm r') by (intros mm r' SS FF; apply (sim_frame env' mm q r' P U' SS FF); intros z X; destruct (F5 z X); tauto).
    assert (S1 : sim env' (fst (check_plain env' c (m0, b0))) q) by (apply (sim_keep env' (m0, b0) _ _ l); auto; intros z X; apply keeps_plain; intros Y; apply X, IN; tauto).
    assert (S2 : sim env' (fst (check_plain env' step (check_plain env' c (m0, b0)))) q) by (apply (sim_keep env' (check_plain env' c (m0, b0)) _ _ l); auto; intros z X; apply keeps_plain; intros Y; apply X, IN; tauto).
    assert (S3 : sim env' (fst (check_stmt env' t (check_plain env' step (check_plain env' c (m0, b0))))) q) by (apply (sim_keep env' (check_plain env' step (check_plain env' c (m0, b0))) _ _ l); auto; intros z X; apply keeps_stmt; intros Y; apply X, IN; tauto).
    assert (G : match loop n (test c) (exec n t) (eval false step) (q, ch0) with Some (OBad, _) => False | Some (ONormal, s) => frame P q (fst s) | _ => True end).
    { apply (loop_ok P (fun s => frame P q (fst s))).
      - intros s s' A B. eapply frame_trans; eassumption.
      - intros s. apply test_frame. intros z X. apply IN. tauto.
      - intros s. apply exec_frame. intros z X. apply IN. tauto.
      - intros s. apply eval_frame. intros z X. apply IN. tauto.
      - intros [r1 ch1] Q. destruct (test_ok env' c m0 b0 r1 ch1 U' F2 (FR _ _ SQ Q) K2) as (tt & s & -> & _). discriminate.
      - intros [r1 ch1] Q. destruct (check_plain env' step (check_plain env' c (m0, b0))) as [m2 b2]. specialize (IH env' m2 b2 r1 ch1 n U' F4 (FR _ _ S2 Q) K). destruct (exec n t (r1, ch1)) as [[[] ?]|]; cbn in IH; auto.
      - intros [r1 ch1] Q. destruct (check_plain env' c (m0, b0)) as [m2 b2]. now destruct (plain_run env' step m2 b2 r1 ch1 U' F3 (FR _ _ S1 Q) K3).
      - apply frame_refl. }
    unfold bind_var. cbn [fst snd]. fold q. destruct (loop n (test c) (exec n t) (eval false step) (q, ch0)) as [[[] [r5 ch5]]|]; cbn [good_out fst]; auto.
    rewrite LEN0. apply leave_sim with (ls := [(x, ty)]). apply FR; assumption.
  - (* SLoop *) intros t IH env m b r ch n U (F2 & F3) S K. cbn [check_stmt exec] in *.
    set (l := moved_s t ++ assigned_s t) in *. set (P := fun x => In x l).
    assert (IN : forall x, In x (moved_s t) \/ In x (assigned_s t) -> In x l) by (intros x; unfold l; rewrite !in_app_iff; tauto).
    assert (FR : forall mm r', sim env mm r -> frame P r r' -> sim env mm r') by (intros mm r' SS FF; apply (sim_frame env mm r r' P U SS FF); intros x X; destruct (F3 x X); tauto).
    assert (S2 : sim env (fst (check_stmt env t (m, b))) r) by (apply (sim_keep env (m, b) _ _ l); auto; intros x X; apply keeps_stmt; intros Y; apply X, IN; tauto).
    assert (G : match loop n (fun s => (Some true, s)) (exec n t) no_step (r, ch) with Some (OBad, _) => False | Some (ONormal, s) => frame P r (fst s) | _ => True end).
    { apply (loop_ok P (fun s => frame P r (fst s))).
      - intros s s' A B. eapply frame_trans; eassumption.
      - intros s. apply frame_refl.
      - intros s. apply exec_frame. intros x X. apply IN. tauto.
      - intros s. apply frame_refl.
      - discriminate.
      - intros [r1 ch1] Q. specialize (IH env m b r1 ch1 n U F2 (FR _ _ S Q) K). destruct (exec n t (r1, ch1)) as [[[] ?]|]; cbn in IH; auto.
      - reflexivity.
      - apply frame_refl. }
    destruct (loop n (fun s => (Some true, s)) (exec n t) no_step (r, ch)) as [[[] s]|]; cbn; auto.
  - (* SDo *) intros t IH c env m b r ch n U [].
  - (* SRange *) intros x t IH env m b r ch n U [].
  - (* SReturn *) intros e env m b r ch n U F S K. cbn [check_stmt exec] in *. pose proof (plain_run env e m b r ch U F S K) as [E S1]. pose proof (consume_same e (r, ch)) as C. rewrite E in C.
    destruct (eval true e (r, ch)) as [ok s1]. cbn [fst] in C. subst ok. exact I.
  - intros. exact I.
  - intros. exact I.
  - (* Nil *) intros ls env m b r ch n ds U F S K D. cbn [check_items execs fst]. apply (finish_ok ds ls); auto; [|discriminate]. exists m, r. split; [assumption|apply frame_refl].
  - (* Then *) intros t IHt l IHl ls env m b r ch n ds U (F1 & F2) S K D. cbn [check_items execs] in *. pose proof (proj1 (proj2 ok_stmt) l (ls ++ env) _ K) as K1.
    specialize (IHt (ls ++ env) m b r ch n U F1 S K1). pose proof (proj1 exec_frame t n (r, ch) (fun _ => True) (fun _ _ => I)) as FR.
    destruct (check_stmt (ls ++ env) t (m, b)) as [m1 b1]. destruct (exec n t (r, ch)) as [[o [r1 ch1]]|]; [|exact I].
    assert (G : o <> ONormal -> o <> OBad -> good_out env (fst (check_items (ls ++ env) l (m1, b1))) (finish ds (length env) (Some (o, (r1, ch1))))).
    { intros N1 N2. apply (finish_ok ds ls); auto; [congruence|]. exists m, r. split; [assumption|]. assert (FF : frame (after o (fun _ => True)) r r1) by (destruct o; auto; congruence). eapply frame_weak; [|exact FF]. auto. }
    destruct o; try (apply G; discriminate); [|destruct IHt]. exact (IHl ls env m1 b1 r1 ch1 n ds U F2 IHt K D).
  - (* Let *) intros x ty e l IHl ls env m b r ch n ds U (F0 & F1 & F2) S K D. cbn [check_items execs] in *. pose proof (proj1 (proj2 ok_stmt) l _ _ K) as K1.
    pose proof (init_ok (ls ++ env) e m b r ch U F1 S K1) as [E S1]. destruct (eval true e (r, ch)) as [ok [r1 ch1]]. cbn [fst snd] in *. subst ok.
    destruct (check_init (ls ++ env) e (m, b)) as [m1 b1]. cbn [fst snd] in *.
    apply (IHl ((x, ty) :: ls) env m1 b1 _ ch1 n ds); auto.
    + now apply uniq_cons.
    + constructor; [repeat split; auto; discriminate|exact S1].
    + intros e' I y Y. specialize (D e' I y Y). cbn [app lookup]. destruct (Nat.eqb_spec x y) as [->|_]; [|exact D]. unfold new_name in F0. congruence.
  - (* Defer *) intros e l IHl ls env m b r ch n ds U (F1 & F2 & F3) S K D. cbn [check_items execs] in *.
    assert (S1 : sim (ls ++ env) (fst (check_plain (ls ++ env) e (m, b))) r).
    { apply (sim_keep _ (m, b) _ _ (names e)); auto; [intros x X; right; auto|]. intros x X. apply keeps_plain. intros Y. apply X. apply moved_names with (m := false). now right. }
    destruct (check_plain (ls ++ env) e (m, b)) as [m1 b1]. apply IHl; auto. intros e' [<-|I]; [exact F2|now apply D].
  - (* CNil *) intros env m b r ch n U F O S K. exact S.
  - (* CCons *) intros d t IHt cs IHc env m b r ch n U (F1 & F2) O S K. cbn [check_cases execc] in *. pose proof (proj2 (proj2 ok_stmt) cs env _ K) as K1.
    assert (O1 : only_copy env (assigned_s t)) by (intros x X; apply O; cbn; rewrite in_app_iff; tauto).
    assert (O2 : only_copy env (assigned_c cs)) by (intros x X; apply O; cbn; rewrite in_app_iff; tauto).
    assert (B : forall r ch, sim env m r -> good_out env (fst (check_cases env cs (check_stmt env t (m, b)))) (exec n t (r, ch))).
    { intros r1 ch1 S1. eapply good_mono; [exact U| |exact (IHt env m b r1 ch1 n U F1 S1 K1)]. intros x L M. apply keeps_stmt; [|exact M]. now apply (only_keep env). }
    destruct d; [now apply B|]. pose proof (toss_fst (r, ch)) as T. destruct (toss (r, ch)) as [tt [r1 ch1]]. cbn [fst snd] in T. subst r1. destruct tt; [now apply B|].
    assert (S1 : sim env (fst (check_stmt env t (m, b))) r) by (apply (sim_keep env (m, b) _ _ (assigned_s t)); auto; intros x X; now apply keeps_stmt).
    destruct (check_stmt env t (m, b)) as [m1 b1]. now apply IHc.
Qed.
Lemma start_sim params : sim (param_env params) [] (start params).
Proof.
  unfold param_env, start, sim. apply Forall2_rev_of. induction params as [|[x o] ps IH]; cbn; constructor; [|exact IH]. repeat split; cbn; try discriminate. now destruct o.
Qed.
Theorem function_ok params body : NoDup (map fst params) -> fine_l (param_env params) body -> accepted (Function params body) = true -> ~ uses_moved (Function params body).
Proof.
  intros U F A (n & ch & s & R). cbn [params_of body_of accepted] in *.
  assert (U' : uniq (param_env params)).
  { unfold uniq, param_env. rewrite map_rev, map_map. apply NoDup_rev. exact U. }
  pose proof (proj1 (proj2 stmt_ok) body [] (param_env params) [] true (start params) ch n [] U' F (start_sim params) A ltac:(intros e [])) as G.
  assert (L : length (param_env params) = length (start params)) by (eapply Forall2_len; apply start_sim). rewrite L, R in G. exact G.
Qed.
