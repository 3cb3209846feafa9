From Verif Require Import Common Defer_Model Defer_Spec.
Local Open Scope nat_scope.

Scheme dstmt_mut := Induction for dstmt Sort Prop with ditems_mut := Induction for ditems Sort Prop.
Combined Scheme d_ind from dstmt_mut, ditems_mut.
Scheme stmt_mut := Induction for stmt Sort Prop with items_mut := Induction for items Sort Prop.
Combined Scheme s_ind from stmt_mut, items_mut.

Section P.
Context {St V : Type}.
Variable act : nat -> St -> St.
Variable cond : nat -> St -> bool * St.
Variable val : nat -> St -> V * St.
Variable n : nat.
Notation out := (option (@outcome V * St)).
Notation texec := (texec act cond val n).
Notation texecs := (texecs act cond val n).
Notation exec := (exec act cond val n).
Notation execs := (execs act cond val n).
Notation dexec := (@dexec St V act cond n).
Notation dexecs := (@dexecs St V act cond n).
Notation fn := (St -> out).
Notation ONormal := (@ONormal V).

Lemma texecs_nil s : texecs [] s = Some (ONormal, s).
Proof. reflexivity. Qed.
Lemma texecs_cons t l s : texecs (t :: l) s = match texec t s with Some (Defer_Spec.ONormal, s) => texecs l s | r => r end.
Proof. reflexivity. Qed.
Lemma texecs_app a b s : texecs (a ++ b) s = match texecs a s with Some (Defer_Spec.ONormal, s) => texecs b s | r => r end.
Proof.
  revert s. induction a as [|t a IH]; intros s; [reflexivity|]. cbn [app]. rewrite !texecs_cons.
  destruct (texec t s) as [[[| | |v] s']|]; auto.
Qed.
Lemma texecs_one t s : texecs [t] s = texec t s.
Proof. rewrite texecs_cons. destruct (texec t s) as [[[| | |v] s']|]; reflexivity. Qed.
Lemma texec_block l s : texec (TBlock l) s = texecs l s.
Proof. reflexivity. Qed.
Lemma texec_retafter e l s : texec (TRetAfter e l) s = let '(v, s) := val e s in match texecs l s with Some (Defer_Spec.ONormal, s) => Some (OReturn (Some v), s) | r => r end.
Proof. reflexivity. Qed.

Lemma dexecs_then d l fs s : dexecs (DThen d l) fs s = match dexec d s with Some (Defer_Spec.ONormal, s) => dexecs l fs s | Some (o, s) => run_all fs o s | None => None end.
Proof. reflexivity. Qed.
Lemma execs_then t l fs s : execs (Then t l) fs s = match exec t s with Some (Defer_Spec.ONormal, s) => execs l fs s | Some (o, s) => run_all fs o s | None => None end.
Proof. reflexivity. Qed.

Definition normal (f : fn) : Prop := forall s o s', f s = Some (o, s') -> o = ONormal.
Lemma run_all_o (fs : list fn) o s : run_all fs o s = match run_all fs ONormal s with Some (_, s') => Some (o, s') | None => None end.
Proof. revert s. induction fs as [|f fs IH]; intros s; cbn [run_all]; [reflexivity|]. destruct (f s) as [[o' s']|]; [apply IH|reflexivity]. Qed.
Lemma run_all_app (a b : list fn) o s : run_all (a ++ b) o s = match run_all a o s with Some (_, s') => run_all b o s' | None => None end.
Proof. revert s. induction a as [|f a IH]; intros s; cbn [app run_all]; [reflexivity|]. destruct (f s) as [[o' s']|]; [apply IH|reflexivity]. Qed.
Lemma run_all_out (fs : list fn) o s o' s' : run_all fs o s = Some (o', s') -> o' = o.
Proof. revert s. induction fs as [|f fs IH]; intros s; cbn [run_all]; [congruence|]. destruct (f s) as [[o1 s1]|]; [apply IH|discriminate]. Qed.

Definition egood (e : entry) (f : fn) (k j : nat) : Prop :=
  forall h dep, h + k <= MAX_DEFER -> dep + j <= MAX_LOOP_DEPTH -> exists t, e h dep = Ok [t] /\ forall s, texec t s = f s.
Record pend := { pe : entry; pf : fn; pk : nat }.
Definition pgood (j : nat) (p : pend) : Prop := egood (pe p) (pf p) (pk p) j /\ normal (pf p).
Definition weight (P : list pend) : nat := fold_right (fun p w => 1 + pk p + w) 0 P.
Lemma weight_app a b : weight (a ++ b) = weight a + weight b.
Proof. unfold weight. induction a as [|p a IH]; cbn [app fold_right]; lia. Qed.
Lemma len_weight P : length P <= weight P.
Proof. unfold weight. induction P as [|p P IH]; cbn [length fold_right]; lia. Qed.
Lemma weight_in p P : In p P -> length P + pk p <= weight P.
Proof.
  pose proof len_weight as L.
  induction P as [|q P IH]; intros I; [destruct I|]. cbn [length weight fold_right]. fold (weight P). destruct I as [->|I]; [specialize (L P); lia|specialize (IH I); lia].
Qed.

Lemma run_entries_ok j P h dep : Forall (pgood j) P -> (forall p, In p P -> h + pk p <= MAX_DEFER) -> dep + j <= MAX_LOOP_DEPTH ->
  exists c, run_entries (map pe P) h dep = Ok c /\ forall s, texecs c s = run_all (map pf P) ONormal s.
Proof.
  induction P as [|p P IH]; intros F H D.
  - exists []. split; reflexivity.
  - inversion F as [|? ? [G N] F']; subst. destruct (G h dep) as (t & E & T); [apply H; now left|assumption|].
    destruct IH as (c & E2 & C); [assumption|intros q Q; apply H; now right|assumption|].
    exists (t :: c). cbn [map run_entries]. rewrite E, E2. split; [reflexivity|]. intros s. rewrite texecs_cons, T. cbn [run_all].
    destruct (pf p s) as [[o s']|] eqn:EF; [|reflexivity]. rewrite (N _ _ _ EF). apply C.
Qed.
Lemma egood_mono e f k j j' : j <= j' -> egood e f k j -> egood e f k j'.
Proof. intros L G h dep H D. apply G; lia. Qed.
Lemma push_ok base own e : base + length own < MAX_DEFER -> push base own e = e :: own.
Proof. intros L. unfold push. destruct (Nat.ltb_spec (base + length own) MAX_DEFER); [reflexivity|lia]. Qed.

(** Loops *)
Lemma while_ext m test (b1 b2 : fn) step s : (forall s, b1 s = b2 s) -> while_loop m test b1 step s = while_loop m test b2 step s.
Proof.
  intros E. revert s. induction m as [|m IH]; intros s; cbn [while_loop]; [reflexivity|]. destruct (test s) as [[] s1]; [|reflexivity].
  rewrite E. destruct (b2 s1) as [[[| | |v] s2]|]; auto.
Qed.
Lemma do_ext m test (b1 b2 : fn) s : (forall s, b1 s = b2 s) -> do_loop m test b1 s = do_loop m test b2 s.
Proof.
  intros E. revert s. induction m as [|m IH]; intros s; cbn [do_loop]; [reflexivity|]. rewrite E.
  destruct (b2 s) as [[[| | |v] s2]|]; auto; destruct (test s2) as [[] s3]; auto.
Qed.
Lemma while_normal m test (b : fn) step : normal b -> normal (while_loop m test b step).
Proof.
  intros N. induction m as [|m IH]; intros s o s'; cbn [while_loop]; [discriminate|]. destruct (test s) as [[] s1]; [|congruence].
  destruct (b s1) as [[o2 s2]|] eqn:E; [|discriminate]. apply N in E. subst. apply IH.
Qed.
Lemma do_normal m test (b : fn) : normal b -> normal (do_loop m test b).
Proof.
  intros N. induction m as [|m IH]; intros s o s'; cbn [do_loop]; [discriminate|]. 
  destruct (b s) as [[o2 s2]|] eqn:E; [|discriminate]. apply N in E. subst. destruct (test s2) as [[] s1]; [apply IH|congruence].
Qed.
(** A return that goes on to run [fs] *)
Definition on_return (fs : list fn) (r : out) : out := match r with Some (OReturn v, s) => run_all fs (OReturn v) s | r => r end.
Lemma while_return fs m test (tb b : fn) step s : (forall s, tb s = on_return fs (b s)) ->
  while_loop m test tb step s = on_return fs (while_loop m test b step s).
Proof.
  intros E. revert s. induction m as [|m IH]; intros s; cbn [while_loop]; [reflexivity|]. destruct (test s) as [[] s1]; [|reflexivity].
  rewrite E. destruct (b s1) as [[[| | |v] s2]|]; cbn [on_return]; auto. rewrite run_all_o. now destruct (run_all fs ONormal s2) as [[]|].
Qed.
Lemma do_return fs m test (tb b : fn) s : (forall s, tb s = on_return fs (b s)) ->
  do_loop m test tb s = on_return fs (do_loop m test b s).
Proof.
  intros E. revert s. induction m as [|m IH]; intros s; cbn [do_loop]; [reflexivity|]. 
  rewrite E. destruct (b s) as [[[| | |v] s2]|]; cbn [on_return]; auto; try (destruct (test s2) as [[] s3]; auto; fail).
  rewrite run_all_o. now destruct (run_all fs ONormal s2) as [[]|].
Qed.
Definition no_jump (r : out) : Prop := match r with Some (OBreak, _) | Some (OContinue, _) => False | _ => True end.
Lemma while_no_jump m test (b : fn) step s : no_jump (while_loop m test b step s).
Proof.
  revert s. induction m as [|m IH]; intros s; cbn [while_loop]; [exact I|]. destruct (test s) as [[] s1]; [|exact I].
  destruct (b s1) as [[[| | |v] s2]|]; try exact I; apply IH.
Qed.
Lemma do_no_jump m test (b : fn) s : no_jump (do_loop m test b s).
Proof.
  revert s. induction m as [|m IH]; intros s; cbn [do_loop]; [exact I|].
  destruct (b s) as [[[| | |v] s2]|]; try exact I; destruct (test s2) as [[] s3]; try exact I; apply IH.
Qed.

(** Deferred statements *)
Lemma dexec_normal : (forall d, normal (dexec d)) /\ (forall l fs, normal (dexecs l fs)).
Proof.
  apply d_ind.
  - intros a s o s' E. cbn in E. congruence.
  - intros l IH. apply IH.
  - intros c d IH s o s'. change (dexec (DIfThen c d) s) with (let '(b, s) := cond c s in if b then dexec d s else Some (ONormal, s)). destruct (cond c s) as [[] s1]; [apply IH|congruence].
  - intros c t IHt e IHe s o s'. change (dexec (DIfElse c t e) s) with (let '(b, s) := cond c s in if b then dexecs t [] s else dexec e s). destruct (cond c s) as [[] s1]; [apply IHt|apply IHe].
  - intros c d IH. apply while_normal, IH.
  - intros l IH c. apply do_normal, IH.
  - intros c step d IH. apply while_normal, IH.
  - intros l IH. apply while_normal, IH.
  - intros fs s o s'. apply run_all_out.
  - intros d IHd l IHl fs s o s'. rewrite dexecs_then. destruct (dexec d s) as [[o1 s1]|] eqn:E; [|discriminate]. apply IHd in E. subst. apply IHl.
  - intros d IHd l IHl fs s o s'. apply IHl.
Qed.
Lemma close_ok j base dep r c Q : r = Ok (c, map pe Q) -> Forall (pgood j) Q -> base + weight Q <= MAX_DEFER -> dep + j <= MAX_LOOP_DEPTH ->
  exists b, close base dep r = Ok b /\
  forall s, texecs b s = match texecs c s with Some (Defer_Spec.ONormal, s') => run_all (map pf Q) ONormal s' | r => r end.
Proof.
  intros -> F W D. unfold close. cbn [bind]. rewrite map_length. destruct (run_entries_ok j Q (base + length Q) dep) as (ds & E & T); [assumption| |assumption|].
  - intros p I. pose proof (weight_in p Q I). lia.
  - rewrite E. cbn [bind]. eexists. split; [reflexivity|]. intros s. rewrite texecs_app. destruct (texecs c s) as [[[| | |v] s']|]; auto.
Qed.

Definition dgood (d : dstmt) : Prop := egood (demit d) (dexec d) (dcount d) (ddepth d).
Definition dgoods (l : ditems) : Prop := forall Own base dep j,
  Forall (pgood j) Own -> ddepths l <= j -> base + weight Own + dcounts l <= MAX_DEFER -> dep + j <= MAX_LOOP_DEPTH ->
  exists c Q, demits l (map pe Own) base dep = Ok (c, map pe Q) /\ Forall (pgood j) Q /\ base + weight Q <= MAX_DEFER
  /\ forall s, match texecs c s with Some (Defer_Spec.ONormal, s') => run_all (map pf Q) ONormal s' | r => r end = dexecs l (map pf Own) s.
Lemma dgoods_block l : dgoods l -> forall base dep, base + dcounts l <= MAX_DEFER -> dep + ddepths l <= MAX_LOOP_DEPTH ->
  exists b, close base dep (demits l [] base dep) = Ok b /\ forall s, texecs b s = dexecs l [] s.
Proof.
  intros G base dep W D. destruct (G [] base dep (ddepths l)) as (c & Q & E & F & W2 & T); [constructor|lia|cbn; lia|assumption|].
  destruct (close_ok _ base dep _ c Q E F W2 D) as (b & EB & TB). exists b. split; [exact EB|]. intros s. rewrite TB. exact (T s).
Qed.
Lemma texec_if c t s : texec (TIf c t) s = let '(b, s) := cond c s in if b then texec t s else Some (ONormal, s).
Proof. reflexivity. Qed.
Lemma d_ok : (forall d, dgood d) /\ (forall l, dgoods l).
Proof.
  apply d_ind; unfold dgood, egood; cbn [demit dcount ddepth].
  - intros a h dep _ _. eexists. split; reflexivity.
  - intros l IH h dep H D. destruct (dgoods_block l IH h dep H D) as (b & E & T). rewrite E. eexists. split; [reflexivity|]. exact T.
  - intros c d IH h dep H D. destruct (IH h dep H D) as (t & E & T). rewrite E. eexists. split; [reflexivity|]. intros s.
    cbn [Defer_Spec.texec Defer_Spec.dexec]. destruct (cond c s) as [[] s1]; [apply T|reflexivity].
  - intros c t IHt e IHe h dep H D. destruct (dgoods_block t IHt h dep) as (b & E & T); [lia|lia|]. rewrite E. cbn [bind].
    destruct (IHe h dep) as (t2 & E2 & T2); [lia|lia|]. rewrite E2. eexists. split; [reflexivity|]. intros s.
    change (Defer_Spec.dexec act cond n (DIfElse c t e) s) with (let '(b, s) := cond c s in if b then dexecs t [] s else dexec e s).
    change (texec (TIfElse c (TBlock b) t2) s) with (let '(x, s) := cond c s in if x then texecs b s else texec t2 s).
    destruct (cond c s) as [[] s1]; [apply T|apply T2].
  - intros c d IH h dep H D. destruct (IH h (S dep)) as (t & E & T); [lia|lia|]. unfold enter_loop. destruct (Nat.ltb_spec dep MAX_LOOP_DEPTH); [|lia].
    rewrite E. eexists. split; [reflexivity|]. intros s. cbn [Defer_Spec.texec Defer_Spec.dexec]. now apply while_ext.
  - intros l IH c h dep H D. destruct (dgoods_block l IH h (S dep)) as (b & E & T); [lia|lia|]. unfold enter_loop. destruct (Nat.ltb_spec dep MAX_LOOP_DEPTH); [|lia].
    rewrite E. eexists. split; [reflexivity|]. intros s. 
    change (texec (TDo (TBlock b) c) s) with (do_loop n (cond c) (texecs b) s). cbn [Defer_Spec.dexec]. now apply do_ext.
  - intros c step d IH h dep H D. destruct (IH h (S dep)) as (t & E & T); [lia|lia|]. unfold enter_loop. destruct (Nat.ltb_spec dep MAX_LOOP_DEPTH); [|lia].
    rewrite E. eexists. split; [reflexivity|]. intros s. cbn [Defer_Spec.texec Defer_Spec.dexec]. now apply while_ext.
  - intros l IH h dep H D. destruct (dgoods_block l IH h (S dep)) as (b & E & T); [lia|lia|]. unfold enter_loop. destruct (Nat.ltb_spec dep MAX_LOOP_DEPTH); [|lia].
    rewrite E. eexists. split; [reflexivity|]. intros s. 
    change (texec (TForever (TBlock b)) s) with (while_loop n forever (texecs b) id_step s). cbn [Defer_Spec.dexec]. now apply while_ext.
  - intros Own base dep j F J W D. exists [], Own. cbn [demits]. split; [reflexivity|]. cbn [dcounts] in W. split; [assumption|]. split; [lia|]. intros s. reflexivity.
  - intros d IHd l IHl Own base dep j F J W D. cbn [dcounts ddepths demits] in *.
    destruct (IHd (base + length Own) dep) as (t & E & T).
    { pose proof (len_weight Own). lia. }
    { lia. }
    rewrite map_length, E. cbn [bind]. destruct (IHl Own base dep j F) as (c & Q & E2 & F2 & W2 & T2); [lia|lia|assumption|]. rewrite E2. cbn [bind].
    exists ([t] ++ c), Q. split; [reflexivity|]. split; [assumption|]. split; [assumption|]. intros s. rewrite dexecs_then.
    rewrite texecs_app, texecs_one, T. destruct (dexec d s) as [[o s1]|] eqn:ED; [|reflexivity]. apply (proj1 dexec_normal) in ED. subst o. apply T2.
  - intros d IHd l IHl Own base dep j F J W D. cbn [dcounts ddepths demits] in *. rewrite push_ok.
    2: { rewrite map_length. pose proof (len_weight Own). lia. }
    set (p := {| pe := demit d; pf := dexec d; pk := dcount d |}).
    destruct (IHl (p :: Own) base dep j) as (c & Q & R).
    + constructor; [|assumption]. split; [apply (egood_mono _ _ _ (ddepth d)); [lia|exact IHd]|apply (proj1 dexec_normal)].
    + lia.
    + cbn [weight fold_right]. fold (weight Own). unfold p. cbn [pk]. lia.
    + assumption.
    + exists c, Q. exact R.
Qed.

(** Statements.  [leave]: what has still to run when a statement ends with an outcome *)
Definition above (P : list pend) (bnds : list nat) : list pend := match bnds with b :: _ => firstn (length P - b) P | [] => P end.
Definition leave (P : list pend) (bnds : list nat) (r : out) : out :=
  match r with
  | Some (Defer_Spec.ONormal, s) => Some (ONormal, s)
  | Some (OBreak, s) => run_all (map pf (above P bnds)) OBreak s
  | Some (OContinue, s) => run_all (map pf (above P bnds)) OContinue s
  | Some (OReturn v, s) => run_all (map pf P) (OReturn v) s
  | None => None
  end.
Definition top_of (h : nat) (bnds : list nat) : option nat := match bnds with b :: _ => Some (h - b) | [] => None end.
Definition bnds_ok (h : nat) (bnds : list nat) : Prop := match bnds with b :: _ => b <= h | [] => True end.
Lemma above_app Own P bnds : bnds_ok (length P) bnds -> above (Own ++ P) bnds = Own ++ above P bnds.
Proof.
  intros B. destruct bnds as [|b bnds]; [reflexivity|]. cbn [above bnds_ok] in *. rewrite app_length, firstn_app.
  replace (length Own + length P - b - length Own) with (length P - b) by lia. f_equal. apply firstn_all2. lia.
Qed.
Lemma leave_loop P bnds r : leave P (length P :: bnds) r = on_return (map pf P) r.
Proof. unfold leave, on_return, above. rewrite Nat.sub_diag. cbn [firstn map run_all]. destruct r as [[[| | |v] s]|]; reflexivity. Qed.
Lemma leave_no_jump P bnds r : no_jump r -> leave P bnds r = on_return (map pf P) r.
Proof. unfold leave, on_return. destruct r as [[[| | |v] s]|]; cbn; tauto. Qed.

Definition sgood (t : stmt) : Prop := forall P bnds j,
  Forall (pgood j) P -> bnds_ok (length P) bnds -> deferred_depth t <= j -> length bnds + depth t + j <= MAX_LOOP_DEPTH ->
  weight P + count t <= MAX_DEFER -> ok (length P) (top_of (length P) bnds) t ->
  exists c, emit t (map pe P) bnds = Ok c
  /\ (braced (length P) (top_of (length P) bnds) t -> exists x, c = [x])
  /\ forall s, texecs c s = leave P bnds (exec t s).
Definition sgoods (l : items) : Prop := forall Own P bnds j,
  Forall (pgood j) Own -> Forall (pgood j) P -> bnds_ok (length P) bnds -> deferred_depths l <= j -> length bnds + depths l + j <= MAX_LOOP_DEPTH ->
  weight Own + weight P + counts l <= MAX_DEFER -> oks (length Own + length P) (top_of (length Own + length P) bnds) l ->
  exists c Q, emits l (map pe Own) (map pe P) bnds = Ok (c, map pe Q) /\ Forall (pgood j) Q /\ weight Q + weight P <= MAX_DEFER
  /\ forall s, match texecs c s with Some (Defer_Spec.ONormal, s') => run_all (map pf Q) ONormal s' | r => r end = leave P bnds (execs l (map pf Own) s).
Lemma sgoods_block l : sgoods l -> forall P bnds j,
  Forall (pgood j) P -> bnds_ok (length P) bnds -> deferred_depths l <= j -> length bnds + depths l + j <= MAX_LOOP_DEPTH ->
  weight P + counts l <= MAX_DEFER -> oks (length P) (top_of (length P) bnds) l ->
  exists b, close (length P) (length bnds) (emits l [] (map pe P) bnds) = Ok b /\ forall s, texecs b s = leave P bnds (execs l [] s).
Proof.
  intros G P bnds j F B J D W O. destruct (G [] P bnds j) as (c & Q & E & FQ & W2 & T); auto.
  destruct (close_ok j (length P) (length bnds) _ c Q E FQ) as (b & EB & TB); [pose proof (len_weight P); lia|lia|].
  exists b. split; [exact EB|]. intros s. now rewrite TB, T.
Qed.
Lemma jump_ok P bnds j (tj : tstmt) o : Forall (pgood j) P -> weight P <= MAX_DEFER -> length bnds + j <= MAX_LOOP_DEPTH -> bnds <> [] ->
  (forall s, texec tj s = Some (o, s)) ->
  exists ds, run_entries (map pe (above P bnds)) (length P) (length bnds) = Ok ds
  /\ (length (above P bnds) = 0 -> ds = []) /\ forall s, texecs (ds ++ [tj]) s = run_all (map pf (above P bnds)) o s.
Proof.
  intros F W D N TJ. destruct (run_entries_ok j (above P bnds) (length P) (length bnds)) as (ds & E & T).
  - destruct bnds as [|b bnds]; [congruence|]. cbn [above]. rewrite <- (firstn_skipn (length P - b) P) in F. now apply Forall_app in F.
  - intros p I. enough (In p P) by (pose proof (weight_in p P ltac:(assumption)); lia). destruct bnds as [|b bnds]; [congruence|]. cbn [above] in I.
    rewrite <- (firstn_skipn (length P - b) P). apply in_or_app. now left.
  - lia.
  - exists ds. split; [exact E|]. split.
    + intros L. destruct (above P bnds); [|discriminate]. cbn in E. congruence.
    + intros s. rewrite texecs_app, T, run_all_o. rewrite (run_all_o _ o). destruct (run_all (map pf (above P bnds)) ONormal s) as [[o' s']|] eqn:R; [|reflexivity].
      rewrite texecs_one. apply TJ.
Qed.
Lemma s_ok : (forall t, sgood t) /\ (forall l, sgoods l).
Proof.
  apply s_ind; unfold sgood; cbn [emit count depth deferred_depth ok].
  - intros a P bnds j F B J D W O. eexists. split; [reflexivity|]. split; [eauto|]. reflexivity.
  - intros l IH P bnds j F B J D W O. rewrite map_length. destruct (sgoods_block l IH P bnds j F B J D W O) as (b & E & T). rewrite E. eexists. split; [reflexivity|].
    split; [eauto|]. intros s. rewrite texecs_one, texec_block. apply T.
  - intros c t IH P bnds j F B J D W [O1 O2]. destruct (IH P bnds j F B J D W O2) as (cd & E & X & T). destruct (X O1) as (x & ->). rewrite E. cbn [bind as_body].
    eexists. split; [reflexivity|]. split; [eauto|]. intros s. rewrite texecs_one, texec_if. cbn [Defer_Spec.exec]. destruct (cond c s) as [[] s1]; [|reflexivity].
    now rewrite <- T, texecs_one.
  - intros c t IHt e IHe P bnds j F B J D W (O1 & O2 & O3). rewrite map_length.
    destruct (sgoods_block t IHt P bnds j F B) as (b & E & T); [lia|lia|lia|assumption|]. rewrite E. cbn [bind].
    destruct (IHe P bnds j F B) as (cd & E2 & X & T2); [lia|lia|lia|assumption|]. destruct (X O2) as (x & ->). rewrite E2. cbn [bind as_body].
    eexists. split; [reflexivity|]. split; [eauto|]. intros s. rewrite texecs_one.
    change (texec (TIfElse c (TBlock b) x) s) with (let '(y, s) := cond c s in if y then texecs b s else texec x s).
    change (exec (IfElse c t e) s) with (let '(y, s) := cond c s in if y then execs t [] s else exec e s).
    destruct (cond c s) as [[] s1]; [apply T|]. now rewrite <- T2, texecs_one.
  - intros c t IH P bnds j F B J D W [O1 O2]. rewrite !map_length. unfold enter_loop. destruct (Nat.ltb_spec (length bnds) MAX_LOOP_DEPTH); [|lia].
    assert (TT : top_of (length P) (length P :: bnds) = Some 0) by (cbn [top_of]; now rewrite Nat.sub_diag).
    destruct (IH P (length P :: bnds) j F) as (cd & E & X & T); [cbn; lia|lia|cbn [length]; lia|lia|now rewrite TT|]. rewrite TT in X. destruct (X O1) as (x & ->). rewrite E. cbn [bind as_body].
    eexists. split; [reflexivity|]. split; [eauto|]. intros s. rewrite texecs_one. cbn [Defer_Spec.exec Defer_Spec.texec].
    rewrite leave_no_jump by apply while_no_jump. apply while_return. intros s1. now rewrite <- texecs_one, T, leave_loop.
  - intros l IH c P bnds j F B J D W O. rewrite !map_length. unfold enter_loop. destruct (Nat.ltb_spec (length bnds) MAX_LOOP_DEPTH); [|lia].
    assert (TT : top_of (length P) (length P :: bnds) = Some 0) by (cbn [top_of]; now rewrite Nat.sub_diag).
    destruct (sgoods_block l IH P (length P :: bnds) j F) as (b & E & T); [cbn; lia|lia|cbn [length]; lia|lia|now rewrite TT|]. cbn [length] in E. rewrite E. cbn [bind].
    eexists. split; [reflexivity|]. split; [eauto|]. intros s. rewrite texecs_one. change (texec (TDo (TBlock b) c) s) with (do_loop n (cond c) (texecs b) s). cbn [Defer_Spec.exec].
    rewrite leave_no_jump by apply do_no_jump. apply do_return. intros s1. now rewrite T, leave_loop.
  - intros c step t IH P bnds j F B J D W [O1 O2]. rewrite !map_length. unfold enter_loop. destruct (Nat.ltb_spec (length bnds) MAX_LOOP_DEPTH); [|lia].
    assert (TT : top_of (length P) (length P :: bnds) = Some 0) by (cbn [top_of]; now rewrite Nat.sub_diag).
    destruct (IH P (length P :: bnds) j F) as (cd & E & X & T); [cbn; lia|lia|cbn [length]; lia|lia|now rewrite TT|]. rewrite TT in X. destruct (X O1) as (x & ->). rewrite E. cbn [bind as_body].
    eexists. split; [reflexivity|]. split; [eauto|]. intros s. rewrite texecs_one. cbn [Defer_Spec.exec Defer_Spec.texec].
    rewrite leave_no_jump by apply while_no_jump. apply while_return. intros s1. now rewrite <- texecs_one, T, leave_loop.
  - intros l IH P bnds j F B J D W O. rewrite !map_length. unfold enter_loop. destruct (Nat.ltb_spec (length bnds) MAX_LOOP_DEPTH); [|lia].
    assert (TT : top_of (length P) (length P :: bnds) = Some 0) by (cbn [top_of]; now rewrite Nat.sub_diag).
    destruct (sgoods_block l IH P (length P :: bnds) j F) as (b & E & T); [cbn; lia|lia|cbn [length]; lia|lia|now rewrite TT|]. cbn [length] in E. rewrite E. cbn [bind].
    eexists. split; [reflexivity|]. split; [eauto|]. intros s. rewrite texecs_one. change (texec (TForever (TBlock b)) s) with (while_loop n forever (texecs b) id_step s). cbn [Defer_Spec.exec].
    rewrite leave_no_jump by apply while_no_jump. apply while_return. intros s1. now rewrite T, leave_loop.
  - intros P bnds j F B J D W O. assert (NB : bnds <> []) by (intros ->; now apply O).
    destruct (jump_ok P bnds j TBreak OBreak F ltac:(lia) ltac:(lia) NB ltac:(reflexivity)) as (ds & E & Z & T).
    destruct bnds as [|b bnds]; [congruence|]. cbn [above] in *. rewrite map_length. rewrite firstn_map, E. cbn [bind].
    eexists. split; [reflexivity|]. split; [|exact T]. cbn [braced top_of]. intros Q. injection Q as Q. rewrite Z; [eexists; reflexivity|]. rewrite firstn_length. lia.
  - intros P bnds j F B J D W O. assert (NB : bnds <> []) by (intros ->; now apply O).
    destruct (jump_ok P bnds j TContinue OContinue F ltac:(lia) ltac:(lia) NB ltac:(reflexivity)) as (ds & E & Z & T).
    destruct bnds as [|b bnds]; [congruence|]. cbn [above] in *. rewrite map_length. rewrite firstn_map, E. cbn [bind].
    eexists. split; [reflexivity|]. split; [|exact T]. cbn [braced top_of]. intros Q. injection Q as Q. rewrite Z; [eexists; reflexivity|]. rewrite firstn_length. lia.
  - intros e P bnds j F B J D W O. rewrite map_length. destruct (Nat.ltb_spec 0 (length P)) as [L|L].
    + destruct (run_entries_ok j P (length P) (length bnds) F) as (ds & E & T); [intros p I; pose proof (weight_in p P I); lia|lia|]. rewrite E. cbn [bind].
      destruct e as [e|].
      * eexists. split; [reflexivity|]. split; [eauto|]. intros s. rewrite texecs_one, texec_retafter. cbn [Defer_Spec.exec]. destruct (val e s) as [v s1]. rewrite T. cbn [leave].
        rewrite (run_all_o _ (OReturn (Some v))). destruct (run_all (map pf P) ONormal s1) as [[o s2]|] eqn:R; [|reflexivity]. apply run_all_out in R. now subst.
      * eexists. split; [reflexivity|]. split; [cbn [braced]; lia|]. intros s. rewrite texecs_app, T. cbn [Defer_Spec.exec leave].
        rewrite (run_all_o _ (OReturn None)). destruct (run_all (map pf P) ONormal s) as [[o s2]|] eqn:R; [|reflexivity]. apply run_all_out in R. now subst.
    + eexists. split; [reflexivity|]. split; [eauto|]. destruct P; [|cbn in L; lia]. intros s. rewrite texecs_one. cbn [Defer_Spec.exec Defer_Spec.texec].
      destruct e as [e|]; [|reflexivity]. now destruct (val e s) as [v s1].
  - intros e P bnds j F B J D W O. eexists. split; [reflexivity|]. split; [eauto|]. destruct P; [|discriminate]. intros s. rewrite texecs_one. cbn [Defer_Spec.exec Defer_Spec.texec].
    now destruct (val e s) as [v s1].
  - intros Own P bnds j FO F B J D W O. exists [], Own. cbn [emits counts] in *. split; [reflexivity|]. split; [assumption|]. split; [lia|]. intros s. rewrite texecs_nil. cbn [Defer_Spec.execs].
    rewrite (run_all_o _ ONormal). now destruct (run_all (map pf Own) ONormal s) as [[o s1]|].
  - intros t IHt l IHl Own P bnds j FO F B J D W O. cbn [emits counts depths deferred_depths oks] in *. destruct O as [O1 O2].
    rewrite <- map_app. destruct (IHt (Own ++ P) bnds j) as (c1 & E1 & _ & T1).
    { apply Forall_app. now split. }
    { destruct bnds; [exact I|]. cbn [bnds_ok] in *. rewrite app_length. lia. }
    { lia. } { lia. } { rewrite weight_app. lia. } { now rewrite app_length. }
    rewrite E1. cbn [bind]. destruct (IHl Own P bnds j FO F B) as (c2 & Q & E2 & FQ & W2 & T2); [lia|lia|lia|assumption|]. rewrite E2. cbn [bind].
    exists (c1 ++ c2), Q. split; [reflexivity|]. split; [assumption|]. split; [assumption|]. intros s. rewrite texecs_app, T1, execs_then.
    assert (JO : forall o s1, (o <> ONormal) -> leave (Own ++ P) bnds (Some (o, s1)) = leave P bnds (run_all (map pf Own) o s1)
       /\ forall s2, leave (Own ++ P) bnds (Some (o, s1)) <> Some (ONormal, s2)).
    { intros o s1 N. rewrite (run_all_o _ o). split.
      - destruct o as [| | |v]; [congruence| | |]; unfold leave; try rewrite (above_app Own P bnds B); rewrite map_app, run_all_app, run_all_o;
          destruct (run_all (map pf Own) ONormal s1) as [[o2 s2]|]; reflexivity.
      - intros s2 QQ. destruct o as [| | |v]; [congruence| | |]; cbn [leave] in QQ; apply run_all_out in QQ; congruence. }
    destruct (exec t s) as [[[| | |v] s1]|] eqn:EX.
    + cbn [leave]. apply T2.
    + destruct (JO OBreak s1 ltac:(discriminate)) as [A N]. rewrite <- A. destruct (leave (Own ++ P) bnds (Some (OBreak, s1))) as [[[| | |v] s2]|]; auto. now destruct (N s2).
    + destruct (JO OContinue s1 ltac:(discriminate)) as [A N]. rewrite <- A. destruct (leave (Own ++ P) bnds (Some (OContinue, s1))) as [[[| | |v] s2]|]; auto. now destruct (N s2).
    + destruct (JO (OReturn v) s1 ltac:(discriminate)) as [A N]. rewrite <- A. destruct (leave (Own ++ P) bnds (Some (OReturn v, s1))) as [[[| | |w] s2]|]; auto. now destruct (N s2).
    + reflexivity.
  - intros d l IHl Own P bnds j FO F B J D W O. cbn [emits counts depths deferred_depths oks] in *. rewrite push_ok.
    2: { rewrite !map_length. pose proof (len_weight Own). pose proof (len_weight P). lia. }
    set (p := {| pe := demit d; pf := dexec d; pk := dcount d |}).
    destruct (IHl (p :: Own) P bnds j) as (c & Q & R).
    + constructor; [|assumption]. split; [apply (egood_mono _ _ _ (ddepth d)); [lia|apply (proj1 d_ok)]|apply (proj1 dexec_normal)].
    + assumption.
    + assumption.
    + lia.
    + lia.
    + cbn [weight fold_right]. fold (weight Own). unfold p. cbn [pk]. lia.
    + cbn [length]. replace (S (length Own) + length P) with (S (length Own + length P)) by lia. destruct bnds as [|b bnds]; [exact O|]. cbn [top_of bnds_ok] in *.
      replace (S (length Own + length P) - b) with (S (length Own + length P - b)) by lia. exact O.
    + exists c, Q. exact R.
Qed.
Theorem function_ok l : counts l <= MAX_DEFER -> depths l + deferred_depths l <= MAX_LOOP_DEPTH -> ok 0 None (Block l) ->
  exists c, emit_function l = Ok c /\ forall s, texecs c s = exec (Block l) s.
Proof.
  intros W D O. destruct (proj1 s_ok (Block l) [] [] (deferred_depths l)) as (c & E & _ & T); cbn [deferred_depth depth count length weight fold_right top_of]; auto; try constructor.
  exists c. split; [exact E|]. intros s. rewrite T. destruct (exec (Block l) s) as [[[| | |v] s1]|]; reflexivity.
Qed.
End P.
