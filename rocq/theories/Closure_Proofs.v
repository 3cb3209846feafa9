(** Proofs about closures. *)
From Verif Require Import Common Closure_Model Closure_Spec.
Local Open Scope nat_scope.

Section Ind.
Variable P : node -> Prop.
Hypothesis HLeaf : P Leaf.
Hypothesis HVar : forall x, P (Var x).
Hypothesis HPlain : forall l, Forall P l -> P (Plain l).
Hypothesis HBlock : forall l, Forall P l -> P (Block l).
Hypothesis HDecl : forall x i, P i -> P (Decl x i).
Hypothesis HConst : forall x i, P i -> P (Const x i).
Hypothesis HIf : forall c t e, P c -> P t -> P e -> P (If c t e).
Hypothesis HWhile : forall c b, P c -> P b -> P (While c b).
Hypothesis HFor : forall i c s b, P i -> P c -> P s -> P b -> P (For i c s b).
Hypothesis HMatch : forall e cs, P e -> (forall bs g b, In (Case bs g b) cs -> P b) -> P (Match e cs).
Hypothesis HOther : forall l, P (Other l).
Fixpoint node_ind' (n : node) : P n.
Proof.
  destruct n as [|x|l|l|x i|x i|c t e|c b|i c s b|e cs|l].
  - exact HLeaf.
  - apply HVar.
  - apply HPlain. induction l as [|a r IH]; constructor; [apply node_ind'|exact IH].
  - apply HBlock. induction l as [|a r IH]; constructor; [apply node_ind'|exact IH].
  - apply HDecl. apply node_ind'.
  - apply HConst. apply node_ind'.
  - apply HIf; apply node_ind'.
  - apply HWhile; apply node_ind'.
  - apply HFor; apply node_ind'.
  - apply HMatch; [apply node_ind'|].
    induction cs as [|[bs' g' b'] r IH]; [intros bs g b []|].
    pose proof (node_ind' b') as Hb. clear - IH Hb. intros bs g b [E|I]; [injection E as _ _ <-; exact Hb|now apply (IH bs g b)].
  - apply HOther.
Qed.
End Ind.

Lemma in_list x l : is_in_list x l = true <-> In x l.
Proof.
  unfold is_in_list. rewrite existsb_exists. split.
  - intros (y & I & E). apply beq_bytes_true in E. now subst.
  - intros I. exists x. split; [assumption|apply beq_bytes_refl].
Qed.
Lemma in_list_false x l : is_in_list x l = false <-> ~ In x l.
Proof. rewrite <- in_list. destruct (is_in_list x l); split; intros; try congruence; try (intros E; discriminate E); now exfalso; auto. Qed.

(** The analysis of names *)
Lemma expr_refs x n : expression n -> In x (find_var_refs n) <-> free x n.
Proof.
  induction n as [|y|l IH|l IH|y i IH|y i IH|c t e IHc IHt IHe|c b IHc IHb|i c s b IHi IHc IHs IHb|e cs IHe IHcs|l] using node_ind';
    intros X; inversion X; subst; cbn [find_var_refs].
  - split; [intros []|intros F; inversion F].
  - split; [intros [->|[]]; constructor|]. intros F; inversion F; subst. now left.
  - rewrite in_flat_map. rewrite Forall_forall in *. split.
    + intros (n & I & J). apply IH in J; auto. econstructor; eassumption.
    + intros F. inversion F; subst. eexists. split; [eassumption|]. apply IH; auto.
Qed.
Lemma expr_local x n : expression n -> ~ local x n.
Proof.
  induction n as [|y|l IH|l IH|y i IH|y i IH|c t e IHc IHt IHe|c b IHc IHb|i c s b IHi IHc IHs IHb|e cs IHe IHcs|l] using node_ind';
    intros X L; inversion X; subst; inversion L as [n D|e cs bs g b I J|n m C M]; subst; try destruct D; try (inversion C; subst).
  rewrite Forall_forall in *. eapply IH; eauto.
Qed.
Lemma expr_decls n : expression n -> find_declared_vars n = [].
Proof. intros X. inversion X; reflexivity. Qed.

Lemma seen_inv n : seen n -> expression n \/
  match n with
  | Block l => Forall seen l
  | Decl x i => expression i
  | If c t e => expression c /\ seen t /\ seen e
  | While c b => expression c /\ seen b
  | For i c s b => seen i /\ expression c /\ expression s /\ seen b
  | Match e cs => expression e /\ Forall seen_case cs
  | _ => False
  end.
Proof. intros S. inversion S; subst; auto. Qed.

Lemma decls_local x n : seen n -> In x (find_declared_vars n) <-> local x n.
Proof.
  induction n as [|y|l IH|l IH|y i IH|y i IH|c t e IHc IHt IHe|c b IHc IHb|i c s b IHi IHc IHs IHb|e cs IHe IHcs|l] using node_ind'; intros S;
  (apply seen_inv in S as [X|S]; [rewrite expr_decls by assumption; split; [intros []|intros L; now apply expr_local in L]|]);
  try contradiction; cbn [find_declared_vars].
  - rewrite in_flat_map. rewrite Forall_forall in *. split.
    + intros (n & I & J). apply IH in J; auto. eapply l_in; [apply c_block; eassumption|assumption].
    + intros L. inversion L as [n D|e cs bs g b I J|n m C M]; subst; [destruct D|]. inversion C; subst.
      exists m. split; [assumption|]. apply IH; auto.
  - split.
    + intros [->|[]]. apply l_here. reflexivity.
    + intros L. inversion L as [n D|e cs bs g b I J|n m C M]; subst; [left; now symmetry|]. inversion C; subst. now apply expr_local in M.
  - destruct S as (Sc & St & Se). rewrite in_app_iff, IHt, IHe by assumption. split.
    + intros [L|L]; (eapply l_in; [apply c_if|exact L]); cbn; auto.
    + intros L. inversion L as [n D|e' cs bs g b I J|n m C M]; subst; [destruct D|]. inversion C as [| | | |c' t' e' n' I| | | | |]; subst.
      destruct I as [<-|[<-|[<-|[]]]]; auto. now apply expr_local in M.
  - destruct S as (Sc & Sb). rewrite IHb by assumption. split.
    + intros L. eapply l_in; [apply c_while|exact L]. cbn; auto.
    + intros L. inversion L as [n D|e' cs bs g b' I J|n m C M]; subst; [destruct D|]. inversion C as [| | | | |c' t' n' I| | | |]; subst.
      destruct I as [<-|[<-|[]]]; auto. now apply expr_local in M.
  - destruct S as (Si & Sc & Ss & Sb). rewrite in_app_iff, IHi, IHb by assumption. split.
    + intros [L|L]; (eapply l_in; [apply c_for|exact L]); cbn; auto.
    + intros L. inversion L as [n D|e' cs bs g b' I J|n m C M]; subst; [destruct D|]. inversion C as [| | | | | |i' c' s' b' n' I| | |]; subst.
      destruct I as [<-|[<-|[<-|[<-|[]]]]]; auto; now apply expr_local in M.
  - destruct S as (Se & Scs). rewrite Forall_forall in Scs. rewrite in_flat_map. split.
    + intros ([bs g b] & I & J). pose proof (Scs _ I) as Sb. inversion Sb; subst. apply in_app_or in J as [J|J].
      * eapply l_bind; eassumption.
      * rewrite (IHcs _ _ _ I) in J by assumption. eapply l_in; [eapply c_case; [exact I|]|exact J]. cbn; auto.
    + intros L. inversion L as [n D|e' cs' bs g b I J|n m C M]; subst; [destruct D| |].
      * exists (Case bs g b). split; [assumption|]. apply in_or_app. now left.
      * inversion C as [| | | | | | |e' cs'|e' cs' bs g b n' I J|]; subst; [now apply expr_local in M|].
        pose proof (Scs _ I) as Sb. inversion Sb; subst. destruct J as [<-|[<-|[]]].
        -- inversion M as [n D| |n m' C' M']; subst; [destruct D|inversion C'].
        -- exists (Case bs Leaf b). split; [assumption|]. apply in_or_app. right. now apply (IHcs _ _ _ I).
Qed.

Lemma declares_local n x : declares n x -> local x n.
Proof. apply l_here. Qed.
Lemma declares_dec n x : declares n x \/ ~ declares n x.
Proof. destruct n; cbn; try tauto; destruct (beq_bytes_spec x x0); auto. Qed.
Lemma in_dec_name (x : name) l : In x l \/ ~ In x l.
Proof. destruct (is_in_list x l) eqn:E; [left; now apply in_list|right; now apply in_list_false]. Qed.

Lemma refs_free x n : seen n -> In x (find_var_refs n) -> free x n \/ local x n.
Proof.
  induction n as [|y|l IH|l IH|y i IH|y i IH|c t e IHc IHt IHe|c b IHc IHb|i c s b IHi IHc IHs IHb|e cs IHe IHcs|l] using node_ind'; intros S I;
  (apply seen_inv in S as [X|S]; [left; now apply expr_refs|]);
  try contradiction; cbn [find_var_refs] in I.
  - enough (frees x l \/ exists n, In n l /\ local x n) as [F|(n & J & L)]; [left; now constructor|right; eapply l_in; [apply c_block|]; eassumption|].
    induction l as [|n l IHl]; [destruct I|]. inversion S; subst. inversion IH; subst. cbn [flat_map] in I. apply in_app_or in I as [I|I].
    + destruct H3 as [F|L]; auto; [left; now apply fs_here|right; exists n; split; [now left|assumption]].
    + destruct IHl as [F|(m & J & L)]; auto.
      * destruct (declares_dec n x) as [D|D]; [right; exists n; split; [now left|now apply l_here]|left; now apply fs_later].
      * right. exists m. split; [now right|assumption].
  - left. apply f_decl. now apply expr_refs.
  - destruct S as (Sc & St & Se). apply in_app_or in I as [I|I]; [left; apply f_cond; now apply expr_refs|].
    apply in_app_or in I as [I|I].
    + destruct IHt as [F|L]; auto; [left; now apply f_then|right; eapply l_in; [apply c_if|exact L]; cbn; auto].
    + destruct IHe as [F|L]; auto; [left; now apply f_else|right; eapply l_in; [apply c_if|exact L]; cbn; auto].
  - destruct S as (Sc & Sb). apply in_app_or in I as [I|I]; [left; apply f_while; now apply expr_refs|].
    destruct IHb as [F|L]; auto; [left; now apply f_do|right; eapply l_in; [apply c_while|exact L]; cbn; auto].
  - destruct S as (Si & Sc & Ss & Sb). apply in_app_or in I as [I|I].
    { destruct IHi as [F|L]; auto; [left; now apply f_init|right; eapply l_in; [apply c_for|exact L]; cbn; auto]. }
    destruct (declares_dec i x) as [D|D]; [right; eapply l_in; [apply c_for|apply l_here; exact D]; cbn; auto|].
    apply in_app_or in I as [I|I]; [left; apply f_for with c; [assumption|cbn; auto|now apply expr_refs]|].
    apply in_app_or in I as [I|I]; [left; apply f_for with s; [assumption|cbn; auto|now apply expr_refs]|].
    destruct IHb as [F|L]; auto; [left; apply f_for with b; [assumption|cbn; auto|assumption]|right; eapply l_in; [apply c_for|exact L]; cbn; auto].
  - destruct S as (Se & Scs). rewrite Forall_forall in Scs. apply in_app_or in I as [I|I]; [left; apply f_match; now apply expr_refs|].
    apply in_flat_map in I as ([bs g b] & I & J). pose proof (Scs _ I) as Sb. inversion Sb; subst.
    destruct (in_dec_name x bs) as [K|K]; [right; eapply l_bind; eassumption|].
    destruct (IHcs _ _ _ I) as [F|L]; auto.
    + left. eapply f_case; eauto.
    + right. eapply l_in; [eapply c_case; [exact I|]|exact L]. cbn; auto.
Qed.
Lemma free_refs x n : seen n -> free x n -> In x (find_var_refs n).
Proof.
  induction n as [|y|l IH|l IH|y i IH|y i IH|c t e IHc IHt IHe|c b IHc IHb|i c s b IHi IHc IHs IHb|e cs IHe IHcs|l] using node_ind'; intros S F;
  (apply seen_inv in S as [X|S]; [now apply expr_refs|]);
  try contradiction; cbn [find_var_refs].
  - inversion F as [| |l' Fs| | | | | | | | | | | |]; subst. clear F. rewrite Forall_forall in *. induction Fs as [n r Fn|n r D Fs IHF]; cbn [flat_map]; apply in_or_app.
    + left. apply IH; auto; [now left|apply S; now left].
    + right. apply IHF; intros; [apply IH|apply S]; auto; now right.
  - inversion F; subst. now apply expr_refs.
  - destruct S as (Sc & St & Se). rewrite !in_app_iff. inversion F; subst; [left; now apply expr_refs|right; left; auto|right; right; auto].
  - destruct S as (Sc & Sb). rewrite !in_app_iff. inversion F; subst; [left; now apply expr_refs|right; auto].
  - destruct S as (Si & Sc & Ss & Sb). rewrite !in_app_iff. inversion F as [| | | | | | | | | |i' c' s' b' Fi|i' c' s' b' n D J Fn| | |]; subst; [left; auto|].
    destruct J as [<-|[<-|[<-|[]]]]; [right; left; now apply expr_refs|right; right; left; now apply expr_refs|right; right; right; auto].
  - destruct S as (Se & Scs). rewrite Forall_forall in Scs. rewrite in_app_iff, in_flat_map. inversion F as [| | | | | | | | | | | |e' cs' Fe|e' cs' bs g b I K J|]; subst.
    + left. now apply expr_refs.
    + right. exists (Case bs g b). split; [assumption|]. pose proof (Scs _ I) as Sb. inversion Sb; subst.
      destruct J as [J|J]; [inversion J|]. now apply (IHcs _ _ _ I).
Qed.

Lemma find_cap_in x caps : In x (map cname caps) <-> find_cap x caps <> None.
Proof.
  induction caps as [|c caps IH]; cbn [map find_cap]; [split; [intros []|congruence]|].
  destruct (beq_bytes_spec x (cname c)) as [->|N].
  - split; [discriminate|now left].
  - rewrite <- IH. split; [intros [E|I]; [congruence|assumption]|now right].
Qed.
Lemma find_cap_app x a b : find_cap x (a ++ b) = match find_cap x a with Some r => Some r | None => find_cap x b end.
Proof. induction a as [|c a IH]; [reflexivity|]. cbn [app find_cap]. now destruct (beq_bytes x (cname c)). Qed.
Lemma find_cap_elem caps c : NoDup (map cname caps) -> In c caps -> find_cap (cname c) caps = Some (by_ref c).
Proof.
  induction caps as [|d caps IH]; [intros _ []|]. cbn [map find_cap]. intros ND [->|I].
  - now rewrite beq_bytes_refl.
  - inversion ND; subst. destruct (beq_bytes_spec (cname c) (cname d)) as [E|N]; [|auto].
    exfalso. apply H1. rewrite <- E. now apply in_map.
Qed.
Lemma names_small (ns l : list name) : NoDup ns -> incl ns l -> length l <= 32 -> forall x, ~ In x ns -> In x l -> length ns < 32.
Proof.
  intros ND I L x N X. assert (length (x :: ns) <= length l); [|cbn in *; lia].
  apply NoDup_incl_length; [now constructor|]. intros y [<-|J]; auto.
Qed.

Lemma nodup_snoc (l : list name) x : NoDup l -> ~ In x l -> NoDup (l ++ [x]).
Proof.
  intros ND N. apply NoDup_rev in ND. rewrite <- (rev_involutive (l ++ [x])). apply NoDup_rev. rewrite rev_app_distr. cbn.
  constructor; [now rewrite <- in_rev|assumption].
Qed.
Definition good_caps (ctx : context) (l : list name) (caps : list capture) : Prop :=
  NoDup (map cname caps) /\ incl (map cname caps) l /\ Forall (fun c => ctype c = type_name ctx (cname c)) caps.
Lemma add_ok ctx l caps x r : length l <= 32 -> good_caps ctx l caps -> ~ In x (map cname caps) -> In x l ->
  add (mkcap x (type_name ctx x) r) caps = Ok (caps ++ [mkcap x (type_name ctx x) r]) /\
  good_caps ctx l (caps ++ [mkcap x (type_name ctx x) r]).
Proof.
  intros L (ND & I & T) N X. split.
  - unfold add. pose proof (names_small _ _ ND I L x N X) as B. rewrite map_length in B. now destruct (Nat.ltb_spec (length caps) 32); [|lia].
  - unfold good_caps. rewrite map_app. cbn [map cname]. splits.
    + apply nodup_snoc; assumption.
    + intros y J. apply in_app_or in J as [J|[<-|[]]]; auto.
    + apply Forall_app. split; [assumption|]. constructor; [reflexivity|constructor].
Qed.
Lemma explicit_ok ctx l : length l <= 32 -> forall es caps, good_caps ctx l caps -> (forall x, In x (map fst es) -> In x l) ->
  exists caps', explicit_loop ctx es caps = Ok caps' /\ good_caps ctx l caps' /\
    forall x, find_cap x caps' = match find_cap x caps with Some r => Some r | None => mode_in x es end.
Proof.
  intros L. induction es as [|[x r] es IH]; intros caps G I; cbn [explicit_loop].
  - exists caps. splits; auto. intros x. cbn. now destruct (find_cap x caps).
  - destruct (is_in_list x (map cname caps)) eqn:E.
    + destruct (IH caps G) as (caps' & -> & G' & F); [intros y J; apply I; now right|]. exists caps'. splits; auto.
      intros y. rewrite F. cbn [mode_in]. destruct (beq_bytes_spec y x) as [->|]; [|reflexivity].
      apply in_list in E. apply find_cap_in in E. now destruct (find_cap x caps).
    + apply in_list_false in E. destruct (add_ok ctx l caps x r L G E) as [-> G1]; [apply I; now left|]. cbn [bind].
      destruct (IH _ G1) as (caps' & -> & G' & F); [intros y J; apply I; now right|]. exists caps'. splits; auto.
      intros y. rewrite F, find_cap_app. cbn [find_cap cname by_ref mode_in]. destruct (find_cap y caps); [reflexivity|].
      destruct (beq_bytes y x); reflexivity.
Qed.
Definition skip (ctx : context) (lam : lambda) (locals : list name) (x : name) : bool :=
  is_in_list x (params lam) || is_in_list x locals || is_in_list x builtins || is_in_list x (funcs ctx) ||
  match find_place x (scopes ctx) with AtGlobal => true | _ => false end.
Lemma refs_ok ctx lam locals l : length l <= 32 -> forall refs caps, good_caps ctx l caps ->
  (forall x, In x refs -> skip ctx lam locals x = false -> In x l) ->
  exists caps', refs_loop ctx lam locals refs caps = Ok caps' /\ good_caps ctx l caps' /\
    forall x, find_cap x caps' = match find_cap x caps with
                                 | Some r => Some r
                                 | None => if is_in_list x refs && negb (skip ctx lam locals x) then Some (default_ref lam) else None
                                 end.
Proof.
  intros L. induction refs as [|x refs IH]; intros caps G I; cbn [refs_loop].
  - exists caps. splits; auto. intros x. cbn. now destruct (find_cap x caps).
  - set (q := _ || _ || _ || _ || _ || _).
    assert (Q : q = is_in_list x (map cname caps) || skip ctx lam locals x).
    { unfold q, skip. destruct (is_in_list x (params lam)), (is_in_list x locals), (is_in_list x (map cname caps)), (is_in_list x builtins), (is_in_list x (funcs ctx)); reflexivity. }
    rewrite Q. clear Q q.
    assert (C : forall y, is_in_list y (x :: refs) = beq_bytes y x || is_in_list y refs) by reflexivity.
    destruct (is_in_list x (map cname caps)) eqn:E; cbn [orb].
    + destruct (IH caps G) as (caps' & -> & G' & F); [intros y J; apply I; now right|]. exists caps'. splits; auto.
      intros y. rewrite F, C. destruct (beq_bytes_spec y x) as [->|]; [|reflexivity].
      apply in_list in E. apply find_cap_in in E. now destruct (find_cap x caps).
    + destruct (skip ctx lam locals x) eqn:K.
      * destruct (IH caps G) as (caps' & -> & G' & F); [intros y J; apply I; now right|]. exists caps'. splits; auto.
        intros y. rewrite F, C. destruct (beq_bytes_spec y x) as [->|]; [|reflexivity]. rewrite K, !andb_false_r. reflexivity.
      * apply in_list_false in E. destruct (add_ok ctx l caps x (default_ref lam) L G E) as [-> G1]; [apply I; [now left|assumption]|]. cbn [bind].
        destruct (IH _ G1) as (caps' & -> & G' & F); [intros y J; apply I; now right|]. exists caps'. splits; auto.
        intros y. rewrite F, C, find_cap_app. cbn [find_cap cname by_ref]. destruct (find_cap y caps); [reflexivity|].
        destruct (beq_bytes_spec y x) as [->|]; [|reflexivity]. now rewrite K.
Qed.

Lemma mode_in_some x l : In x (map fst l) <-> mode_in x l <> None.
Proof.
  induction l as [|[y r] l IH]; cbn [map mode_in fst]; [split; [intros []|congruence]|].
  destruct (beq_bytes_spec x y) as [->|N]; [split; [discriminate|now left]|]. rewrite <- IH. split; [intros [E|I]; [congruence|assumption]|now right].
Qed.
(** What is captured, and how *)
Definition captures_spec (ctx : context) (lam : lambda) (x : name) : Prop :=
  In x (map fst (explicit lam)) \/ (free x (body lam) /\ ~ In x (params lam) /\ variable ctx x).
Definition well_formed (ctx : context) (lam : lambda) : Prop :=
  seen (body lam) /\
  (forall x, local x (body lam) -> ~ free x (body lam)) /\
  (exists l, length l <= 32 /\ forall x, captures_spec ctx lam x -> In x l) /\
  (forall x, free x (body lam) -> In x (params lam) \/ variable ctx x \/ global ctx x \/ In x (funcs ctx) \/ In x builtins).
Lemma analyze_ok ctx lam : well_formed ctx lam ->
  exists caps, analyze ctx lam = Ok caps /\ NoDup (map cname caps) /\
    Forall (fun c => ctype c = type_name ctx (cname c)) caps /\
    (forall x, captures_spec ctx lam x -> find_cap x caps = Some (refers lam x)) /\
    (forall x, ~ captures_spec ctx lam x -> find_cap x caps = None).
Proof.
  intros (Sn & Cl & (l & L & Il) & Fr). unfold analyze.
  destruct (explicit_ok ctx l L (explicit lam) []) as (c1 & -> & G1 & F1).
  { unfold good_caps. splits; [constructor|intros y []|constructor]. }
  { intros x I. apply Il. now left. }
  cbn [bind].
  assert (K : forall x, In x (find_var_refs (body lam)) -> skip ctx lam (find_declared_vars (body lam)) x = false ->
    free x (body lam) /\ ~ In x (params lam) /\ variable ctx x).
  { intros x I S. unfold skip in S. repeat (apply orb_false_elim in S as [S ?]).
    apply in_list_false in S, H0, H1, H2. rewrite decls_local in H2 by assumption.
    destruct (refs_free x _ Sn I) as [F|]; [|contradiction]. splits; auto.
    destruct (Fr x F) as [|[V|[V|[V|V]]]]; try contradiction; [assumption|]. unfold global in V. rewrite V in H. discriminate H. }
  destruct (refs_ok ctx lam (find_declared_vars (body lam)) l L (find_var_refs (body lam)) c1 G1) as (c2 & -> & (ND & _ & T) & F2).
  { intros x I S. apply Il. right. now apply K. }
  exists c2. splits; auto.
  - intros x C. rewrite F2, F1. cbn [find_cap]. unfold refers. destruct (mode_in x (explicit lam)) as [r|] eqn:M; [reflexivity|].
    destruct C as [C|(F & P & V1 & V2 & V3)]; [apply mode_in_some in C; congruence|].
    assert (E1 : is_in_list x (find_var_refs (body lam)) = true) by (apply in_list; now apply free_refs). rewrite E1.
    assert (E2 : skip ctx lam (find_declared_vars (body lam)) x = false); [|now rewrite E2].
    unfold skip. rewrite V1. apply in_list_false in P, V2, V3. rewrite P, V2, V3. rewrite orb_false_r, !orb_false_r.
    cbn [orb]. apply in_list_false. intros I. apply decls_local in I; [|assumption]. now apply (Cl x).
  - intros x C. rewrite F2, F1. cbn [find_cap]. destruct (mode_in x (explicit lam)) as [r|] eqn:M.
    { exfalso. apply C. left. apply mode_in_some. congruence. }
    destruct (is_in_list x (find_var_refs (body lam))) eqn:E1; [|reflexivity].
    destruct (skip ctx lam (find_declared_vars (body lam)) x) eqn:E2; [reflexivity|].
    exfalso. apply C. right. apply K; [now apply in_list|assumption].
Qed.

Lemma find_in_none x s : ~ In x (map fst s) -> find_in x s = None.
Proof.
  induction s as [|[y t] s IH]; [reflexivity|]. cbn [map fst find_in]. intros N. destruct (beq_bytes_spec y x); [exfalso; apply N; now left|].
  apply IH. intros I. apply N. now right.
Qed.
Lemma symbol_declared x t l : declared x t l -> symbol_type x l = Some t.
Proof.
  intros (inner & s & outer & a & b & -> & -> & Na & Ni).
  induction inner as [|s inner IH]; cbn [app symbol_type].
  - assert (H : forall u, find_in x u = Some (Some t) -> match find_in x u with Some t => t | None => symbol_type x outer end = Some t) by (intros u H; now rewrite H).
    apply H. clear -Na. induction a as [|[y u] a IH]; cbn [app find_in map fst] in *; [now rewrite beq_bytes_refl|].
    destruct (beq_bytes_spec y x); [exfalso; apply Na; now left|]. apply IH. intros I. apply Na. now right.
  - rewrite find_in_none by (apply Ni; now left). apply IH. intros s' I. apply Ni. now right.
Qed.
Lemma type_declared ctx x t : declared x t (scopes ctx) -> type_name ctx x = t.
Proof. intros D. unfold type_name. now rewrite (symbol_declared _ _ _ D). Qed.

(** Association lists and lists of contexts *)
Lemma get_put {A} x y (v : A) l : get x (put y v l) = if beq_bytes x y then match get y l with Some _ => Some v | None => None end else get x l.
Proof.
  induction l as [|[z w] l IH]; cbn [put get].
  - now destruct (beq_bytes x y).
  - destruct (beq_bytes_spec y z) as [->|N]; cbn [get].
    + destruct (beq_bytes_spec x z) as [->|]; reflexivity.
    + rewrite IH. destruct (beq_bytes_spec x z) as [->|]; [|reflexivity].
      destruct (beq_bytes_spec z y) as [->|]; [congruence|reflexivity].
Qed.
Lemma get_in {A} x (l : list (name * A)) : get x l <> None <-> In x (map fst l).
Proof.
  induction l as [|[y v] l IH]; cbn [get map fst]; [split; [congruence|intros []]|].
  destruct (beq_bytes_spec x y) as [->|N]; [split; [now left|discriminate]|]. rewrite IH. split; [now right|intros [E|I]; [congruence|assumption]].
Qed.
Lemma put_names {A} x (v : A) l : map fst (put x v l) = map fst l.
Proof. induction l as [|[y w] l IH]; [reflexivity|]. cbn [put]. destruct (beq_bytes x y); cbn [map fst]; congruence. Qed.
Lemma nth_update {A} n k (f : A -> A) l : nth_error (update n f l) k = if k =? n then option_map f (nth_error l k) else nth_error l k.
Proof.
  revert n k. induction l as [|a l IH]; intros [|n] [|k]; cbn [update nth_error Nat.eqb option_map]; try reflexivity.
  - now destruct (k =? n).
  - apply IH.
Qed.
Lemma length_update {A} n (f : A -> A) l : length (update n f l) = length l.
Proof. revert n. induction l as [|a l IH]; intros [|n]; cbn; auto. Qed.
Lemma nth_replace {A} n k (a : A) l : nth_error (replace n a l) k = if k =? n then option_map (fun _ => a) (nth_error l k) else nth_error l k.
Proof.
  revert n k. induction l as [|b l IH]; intros [|n] [|k]; cbn [replace nth_error Nat.eqb option_map]; try reflexivity.
  - now destruct (k =? n).
  - apply IH.
Qed.
Lemma length_replace {A} n (a : A) l : length (replace n a l) = length l.
Proof. revert n. induction l as [|b l IH]; intros [|n]; cbn; auto. Qed.

Section Sim.
Variable value : Type.
Variable ctx : context.
Notation mem := (mem value). Notation world := (world value). Notation vars := (vars value).

Definition mem_rel (m : mem) (w : world) : Prop :=
  (forall x, get x (globals m) = sglobals w x) /\
  (if alive w then exists f, frame m = Some f /\ forall x, get x f = svars w x else frame m = None).
Definition env_rel (m : mem) (caps : list capture) (own : vars) (e : option nat) : Prop :=
  match e with
  | None => caps = []
  | Some n => exists fs, nth_error (heap m) n = Some fs /\
      forall x, match find_cap x caps with
                | Some true => get x fs = Some (ToVar x)
                | Some false => exists v, own x = Some v /\ get x fs = Some (Val v)
                | None => True
                end
  end.
Definition heap_rel (m m' : mem) (e : option nat) : Prop :=
  length (heap m') = length (heap m) /\ forall k, e <> Some k -> nth_error (heap m') k = nth_error (heap m) k.

Lemma describes_set (w : world) x v : describes ctx w -> svars w x <> None -> describes ctx (mkworld (sglobals w) (set (svars w) x v) (alive w)).
Proof.
  intros [D1 D2] N. unfold describes, set. cbn [svars sglobals]. split; intros y.
  - rewrite <- D1. destruct (beq_bytes_spec y x) as [->|]; [|reflexivity]. split; [auto|discriminate].
  - intros G. destruct (beq_bytes_spec y x) as [->|]; [discriminate|auto].
Qed.
Lemma describes_gset (w : world) x v : describes ctx w -> sglobals w x <> None -> describes ctx (mkworld (set (sglobals w) x v) (svars w) (alive w)).
Proof.
  intros [D1 D2] N. unfold describes, set. cbn [svars sglobals]. split; intros y; [apply D1|].
  intros G. apply D2. destruct (beq_bytes_spec y x) as [E|]; [rewrite E; exact N|exact G].
Qed.

Lemma body_ok lam caps e : (forall x, captures_spec ctx lam x -> find_cap x caps = Some (refers lam x)) ->
  (forall x, ~ captures_spec ctx lam x -> find_cap x caps = None) ->
  (forall x, In x (map fst (explicit lam)) -> variable ctx x /\ ~ In x (params lam) /\ ~ local x (body lam)) ->
  (forall x, local x (body lam) -> ~ free x (body lam)) ->
  (forall x, free x (body lam) \/ local x (body lam) -> hidden e x = false) ->
  forall (p : prog value) bound own w locals m v own' w', follows ctx (body lam) bound p ->
    (forall x, In x (params lam) -> In x bound) ->
    (forall x, In x bound <-> In x (map fst locals)) -> (forall x, In x bound -> find_cap x caps = None /\ hidden e x = false) ->
    run_spec lam own w locals p = Some (v, own', w') -> mem_rel m w -> env_rel m caps own e -> describes ctx w ->
    exists m', run_body caps e m locals p = Ok (v, m') /\ mem_rel m' w' /\ env_rel m' caps own' e /\ heap_rel m m' e /\ describes ctx w'.
Proof.
  intros Cap NCap Ex Cl Hid.
  induction p as [v|x k IH|x v k IH|x v k IH]; intros bound own w locals m v0 own' w' Fo Pb Bl Bc R M E D; cbn [run_spec] in R.
  - injection R as <- <- <-. exists m. splits; auto. now split.
  - destruct Fo as [Fx Fk]. cbn [run_body codegen_var].
    assert (NB : get x locals = None -> ~ In x bound).
    { intros G I. apply Bl in I. apply get_in in I. congruence. }
    destruct (get x locals) as [u|] eqn:G.
    + assert (I : In x bound) by (apply Bl, get_in; congruence). rewrite (proj1 (Bc x I)). cbn [load]. rewrite (proj2 (Bc x I)), G. cbn [bind]. eapply IH; eauto.
    + specialize (NB eq_refl). destruct Fx as [|[Fr V]]; [contradiction|].
      assert (NP : ~ In x (params lam)) by (intros I; apply NB; auto).
      destruct (svars w x) as [u|] eqn:Vx.
      * assert (Vr : variable ctx x).
        { destruct V as [|Gl]; [assumption|]. unfold global in Gl. assert (A : find_place x (scopes ctx) = AtLocal) by (apply D; congruence). congruence. }
        rewrite (Cap x) by (right; auto). destruct (refers lam x) eqn:Rf.
        -- destruct (alive w) eqn:A; [|discriminate R]. cbn [load]. unfold env_rel in E. destruct e as [n|].
           ++ destruct E as (fs & Hn & Hf). pose proof (Hf x) as Hx. rewrite (Cap x), Rf in Hx by (right; auto).
              unfold load_field. rewrite Hn, Hx. cbn [bind]. pose proof M as [_ M2]. rewrite A in M2. destruct M2 as (f & -> & Mf). rewrite Mf, Vx. cbn [bind].
              eapply IH; eauto. exists fs. split; assumption.
           ++ subst caps. discriminate (Cap x (or_intror (conj Fr (conj NP Vr)))).
        -- cbn [load]. unfold env_rel in E. destruct e as [n|].
           ++ destruct E as (fs & Hn & Hf). pose proof (Hf x) as Hx. rewrite (Cap x), Rf in Hx by (right; auto). destruct Hx as (z & Ho & Hx).
              rewrite Ho in R. unfold load_field. rewrite Hn, Hx. cbn [bind value_of]. eapply IH; eauto. exists fs. split; assumption.
           ++ subst caps. discriminate (Cap x (or_intror (conj Fr (conj NP Vr)))).
      * assert (NV : ~ variable ctx x) by (intros [A _]; apply D in A; congruence).
        rewrite (NCap x) by (intros [C|(_ & _ & C)]; [apply Ex in C; tauto|contradiction]).
        cbn [load]. rewrite Hid by now left. rewrite G, (proj1 M x). destruct (sglobals w x) as [u|]; [|discriminate R]. cbn [bind]. eapply IH; eauto.
  - destruct Fo as [Fx Fk]. cbn [run_body codegen_var].
    assert (NB : get x locals = None -> ~ In x bound).
    { intros G I. apply Bl in I. apply get_in in I. congruence. }
    destruct (get x locals) as [u|] eqn:G.
    + assert (I : In x bound) by (apply Bl, get_in; congruence). rewrite (proj1 (Bc x I)). cbn [store]. rewrite (proj2 (Bc x I)), G. cbn [bind fst snd].
      eapply IH; eauto. intros y. now rewrite put_names.
    + specialize (NB eq_refl). destruct Fx as [|[Fr V]]; [contradiction|].
      assert (NP : ~ In x (params lam)) by (intros I; apply NB; auto).
      destruct (svars w x) as [u|] eqn:Vx.
      * assert (Vr : variable ctx x).
        { destruct V as [|Gl]; [assumption|]. unfold global in Gl. assert (A : find_place x (scopes ctx) = AtLocal) by (apply D; congruence). congruence. }
        rewrite (Cap x) by (right; auto). destruct (refers lam x) eqn:Rf.
        -- destruct (alive w) eqn:A; [|discriminate R]. cbn [store]. destruct e as [n|].
           ++ cbn [env_rel] in E. destruct E as (fs & Hn & Hf). pose proof (Hf x) as Hx. rewrite (Cap x), Rf in Hx by (right; auto).
              unfold load_field. rewrite Hn, Hx. cbn [bind]. pose proof M as [M1 M2]. rewrite A in M2. destruct M2 as (f & -> & Mf). rewrite Mf, Vx. cbn [bind fst snd].
              edestruct (IH bound own (mkworld (sglobals w) (set (svars w) x v) true) locals (mkmem (globals m) (Some (put x v f)) (heap m))) as (m' & Rm & Q1 & Q2 & [Q3 Q3'] & Q4); try eassumption.
              ** unfold mem_rel. cbn [globals frame sglobals svars alive]. split; [exact M1|]. eexists. split; [reflexivity|].
                 intros y. rewrite get_put. unfold set. destruct (beq_bytes_spec y x) as [->|]; [rewrite Mf, Vx; reflexivity|apply Mf].
              ** cbn [env_rel heap]. exists fs. split; eassumption.
              ** rewrite <- A. apply describes_set; [assumption|congruence].
              ** exists m'. splits; auto. split; [exact Q3|exact Q3'].
           ++ cbn [env_rel] in E. subst caps. discriminate (Cap x (or_intror (conj Fr (conj NP Vr)))).
        -- cbn [store]. destruct e as [n|].
           ++ cbn [env_rel] in E. destruct E as (fs & Hn & Hf). pose proof (Hf x) as Hx. rewrite (Cap x), Rf in Hx by (right; auto). destruct Hx as (z & Ho & Hx).
              unfold store_field. rewrite Hn, Hx. cbn [bind fst snd].
              edestruct (IH bound (set own x v) w locals (mkmem (globals m) (frame m) (update n (put x (Val v)) (heap m)))) as (m' & Rm & Q1 & Q2 & [Q3 Q3'] & Q4); try eassumption.
              ** cbn [env_rel heap]. exists (put x (Val v) fs). split; [rewrite nth_update, Nat.eqb_refl, Hn; reflexivity|].
                 intros y. pose proof (Hf y) as Hy. rewrite get_put. unfold set. destruct (beq_bytes_spec y x) as [->|Ne].
                 { rewrite (Cap x), Rf by (right; auto). exists v. split; [reflexivity|]. now rewrite Hx. }
                 exact Hy.
              ** exists m'. splits; auto. split; [rewrite Q3; cbn [heap]; now rewrite length_update|].
                 intros j J. rewrite Q3' by assumption. cbn [heap]. rewrite nth_update. destruct (Nat.eqb_spec j n) as [->|]; [congruence|reflexivity].
           ++ cbn [env_rel] in E. subst caps. discriminate (Cap x (or_intror (conj Fr (conj NP Vr)))).
      * assert (NV : ~ variable ctx x) by (intros [A _]; apply D in A; congruence).
        rewrite (NCap x) by (intros [C|(_ & _ & C)]; [apply Ex in C; tauto|contradiction]).
        cbn [store]. rewrite Hid by now left. rewrite G. pose proof M as [M1 M2]. rewrite M1. destruct (sglobals w x) as [u|] eqn:Gx; [|discriminate R]. cbn [bind fst snd].
        edestruct (IH bound own (mkworld (set (sglobals w) x v) (svars w) (alive w)) locals (mkmem (put x v (globals m)) (frame m) (heap m))) as (m' & Rm & Q1 & Q2 & [Q3 Q3'] & Q4); try eassumption.
        -- unfold mem_rel. cbn [globals frame sglobals svars alive]. split; [|exact M2].
           intros y. rewrite get_put. unfold set. destruct (beq_bytes_spec y x) as [->|]; [rewrite M1, Gx; reflexivity|apply M1].
        -- apply describes_gset; [assumption|congruence].
        -- exists m'. splits; auto. split; [exact Q3|exact Q3'].
  - destruct Fo as [Lx Fk]. cbn [run_body]. eapply IH; try eassumption.
    + intros y I. right. auto.
    + intros y. cbn [map fst In]. rewrite <- Bl. reflexivity.
    + intros y [<-|I]; [|auto]. split; [|apply Hid; now right]. apply NCap. intros [C|(C & _)]; [apply Ex in C; tauto|]. now apply (Cl x).
Qed.

(** Creating a closure in the enclosing function *)
Definition cell_for (f : list (name * value)) (c : capture) : option (cell value) :=
  match get (cname c) f with Some v => Some (if by_ref c then ToVar (cname c) else Val v) | None => None end.
Lemma fill_ok n f : forall todo (m : mem) fs, frame m = Some f -> nth_error (heap m) n = Some fs ->
  NoDup (map cname todo) -> (forall c, In c todo -> get (cname c) f <> None /\ get (cname c) fs <> None /\ cname c <> bs "ctx") ->
  exists m' fs', fill m n (capture_stmts None todo) = Ok m' /\ globals m' = globals m /\ frame m' = Some f /\
    length (heap m') = length (heap m) /\
    (forall k, k <> n -> nth_error (heap m') k = nth_error (heap m) k) /\ nth_error (heap m') n = Some fs' /\
    (forall x, ~ In x (map cname todo) -> get x fs' = get x fs) /\
    (forall c, In c todo -> get (cname c) fs' = cell_for f c).
Proof.
  induction todo as [|c todo IH]; intros m fs F Hn ND Hc; cbn [capture_stmts map fill].
  - exists m, fs. splits; auto. intros c [].
  - inversion ND as [|? ? ND1 ND2]; subst.
    destruct (Hc c (or_introl eq_refl)) as (C1 & C2 & C3).
    assert (C4 : hidden (Some n) (cname c) = false) by (unfold hidden; destruct (beq_bytes_spec (cname c) (bs "ctx")); [contradiction|reflexivity]).
    destruct (get (cname c) f) as [v|] eqn:Gv; [|congruence]. destruct (get (cname c) fs) as [u|] eqn:Gu; [|congruence].
    assert (E : eval_rhs m n (if by_ref c then AddressOf (Name (cname c)) else Value (codegen_var None (cname c))) =
      Ok (if by_ref c then ToVar (cname c) else Val v)).
    { destruct (by_ref c); cbn [eval_rhs codegen_var]; rewrite C4, F, Gv; reflexivity. }
    rewrite E. cbn [bind]. unfold store_field. rewrite Hn, Gu. cbn [bind].
    set (cl := if by_ref c then ToVar (cname c) else Val v).
    destruct (IH (mkmem (globals m) (frame m) (update n (put (cname c) cl) (heap m))) (put (cname c) cl fs)) as (m' & fs' & Q1 & Q2 & Q3 & Q4 & Q5 & Q6 & Q7 & Q8).
    + exact F.
    + cbn [heap]. now rewrite nth_update, Nat.eqb_refl, Hn.
    + assumption.
    + intros d I. destruct (Hc d (or_intror I)) as (D1 & D2 & D3). splits; [assumption| |assumption]. rewrite get_put.
      destruct (beq_bytes_spec (cname d) (cname c)); [rewrite Gu; discriminate|assumption].
    + exists m', fs'. splits; try assumption.
      * rewrite Q4. cbn [heap]. apply length_update.
      * intros k K. rewrite Q5 by assumption. cbn [heap]. rewrite nth_update. destruct (Nat.eqb_spec k n); [congruence|reflexivity].
      * intros x X. cbn [map In] in X. rewrite Q7 by tauto. rewrite get_put. destruct (beq_bytes_spec x (cname c)) as [->|]; [exfalso; apply X; now left|reflexivity].
      * intros d [<-|I]; [|auto]. rewrite Q7 by assumption. rewrite get_put, beq_bytes_refl, Gu. unfold cell_for. now rewrite Gv.
Qed.
Lemma find_cap_some x l r : find_cap x l = Some r -> exists c, In c l /\ cname c = x /\ by_ref c = r.
Proof.
  induction l as [|c l IH]; cbn [find_cap]; [discriminate|]. destruct (beq_bytes_spec x (cname c)) as [->|].
  - intros [= <-]. exists c. splits; auto. now left.
  - intros H. destruct (IH H) as (d & I & E). exists d. split; [now right|exact E].
Qed.
Lemma find_cap_name x l : In x (map cname l) -> find_cap x l <> None.
Proof.
  induction l as [|c l IH]; intros []; cbn [find_cap].
  - subst. rewrite beq_bytes_refl. discriminate.
  - destruct (beq_bytes x (cname c)); [discriminate|auto].
Qed.
Lemma create_ok (m : mem) (w : world) caps ps (p : prog value) : mem_rel m w -> alive w = true -> NoDup (map cname caps) ->
  (forall x, In x (map cname caps) -> svars w x <> None /\ x <> bs "ctx") ->
  exists m' e, create None m caps ps p = Ok (m', mkclo (caps, ps, p) e) /\ mem_rel m' w /\ env_rel m' caps (svars w) e /\
    length (heap m) <= length (heap m') /\
    (forall k, k < length (heap m) -> nth_error (heap m') k = nth_error (heap m) k) /\
    match e with Some n => length (heap m) <= n /\ n < length (heap m') | None => True end.
Proof.
  intros M A ND Hv. unfold create. destruct caps as [|c0 caps0]; [exists m, None; splits; auto; reflexivity|].
  set (caps := c0 :: caps0) in *. pose proof M as [M1 M2]. rewrite A in M2. destruct M2 as (f & F & Mf).
  assert (Hf : forall l x, In x (map cname l) -> get x (map (fun c => (cname c, Uninit)) l) = Some (@Uninit value)).
  { induction l as [|c l IH]; intros x []; cbn [map get].
    - subst. now rewrite beq_bytes_refl.
    - destruct (beq_bytes x (cname c)); [reflexivity|auto]. }
  destruct (fill_ok (length (heap m)) f caps (mkmem (globals m) (frame m) (heap m ++ [map (fun c => (cname c, Uninit)) caps])) (map (fun c => (cname c, Uninit)) caps))
    as (m' & fs' & Q1 & Q2 & Q3 & Q4 & Q5 & Q6 & Q7 & Q8).
  - exact F.
  - cbn [heap]. rewrite nth_error_app2, Nat.sub_diag by lia. reflexivity.
  - assumption.
  - intros c I. apply (in_map cname) in I. splits; [rewrite Mf; now apply Hv| |now apply Hv]. rewrite Hf by assumption. discriminate.
  - rewrite Q1. cbn [bind]. exists m', (Some (length (heap m))). cbn [heap] in *. rewrite app_length in Q4. cbn [length] in Q4. splits; try lia.
    + reflexivity.
    + split; [intros x; rewrite Q2; apply M1|]. rewrite A. now exists f.
    + cbn [env_rel]. exists fs'. split; [assumption|]. intros x. destruct (find_cap x caps) as [r|] eqn:Fc; [|exact I].
      destruct (find_cap_some _ _ _ Fc) as (c & Ic & <- & <-). specialize (Q8 c Ic). unfold cell_for in Q8.
      destruct (get (cname c) f) as [v|] eqn:Gv; [|exfalso; apply (proj1 (Hv (cname c) (in_map cname caps c Ic))); rewrite <- Mf; exact Gv].
      destruct (by_ref c); [assumption|]. exists v. rewrite <- Mf. auto.
    + intros k K. rewrite Q5 by lia. apply nth_error_app1. assumption.
Qed.

(** Histories *)
Definition clo_rel (m : mem) (sc : sclosure value) (c : closure value) : Prop :=
  exists caps, code c = (caps, params (slam sc), sbody sc) /\ env_rel m caps (copy sc) (env c) /\
    lambda_ok ctx (slam sc) (sbody sc) /\
    (forall x, captures_spec ctx (slam sc) x -> find_cap x caps = Some (refers (slam sc) x)) /\
    (forall x, ~ captures_spec ctx (slam sc) x -> find_cap x caps = None).
Definition distinct (m : mem) (cs : list (closure value)) : Prop :=
  (forall j c n, nth_error cs j = Some c -> env c = Some n -> n < length (heap m)) /\
  (forall i j c d n, nth_error cs i = Some c -> nth_error cs j = Some d -> env c = Some n -> env d = Some n -> i = j).
Definition state_rel (s : mem * list (closure value) * list value) (t : world * list (sclosure value) * list value) : Prop :=
  let '(m, cs, out) := s in let '(w, scs, out') := t in
  mem_rel m w /\ describes ctx w /\ out = out' /\ distinct m cs /\ length cs = length scs /\
  forall j sc c, nth_error scs j = Some sc -> nth_error cs j = Some c -> clo_rel m sc c.

Lemma env_rel_heap (m m' : mem) caps own e : env_rel m caps own e ->
  (forall n, e = Some n -> nth_error (heap m') n = nth_error (heap m) n) -> env_rel m' caps own e.
Proof. destruct e as [n|]; cbn [env_rel]; [|auto]. intros (fs & H & F) E. exists fs. rewrite (E n eq_refl). auto. Qed.
Lemma clo_rel_heap (m m' : mem) sc c : clo_rel m sc c -> (forall n, env c = Some n -> nth_error (heap m') n = nth_error (heap m) n) -> clo_rel m' sc c.
Proof. intros (caps & Q1 & Q2 & Q3) H. exists caps. splits; try apply Q3; auto. eapply env_rel_heap; eauto. Qed.

Lemma lambda_wf lam (p : prog value) : lambda_ok ctx lam p -> well_formed ctx lam.
Proof. intros (Q1 & Q2 & Q3 & Q4 & Q5 & Q6 & Q7). unfold well_formed, captures_spec. splits; auto. Qed.
Lemma step_ok s t o t' : op_ok ctx o -> state_rel s t -> step_spec t o = Some t' -> exists s', step ctx s o = Ok s' /\ state_rel s' t'.
Proof.
  destruct s as [[m cs] out], t as [[w scs] out']. intros Ho (M & D & <- & [Di1 Di2] & L & R) St.
  destruct o as [x v|x v|lam p|k args|]; cbn [step_spec step] in *.
  - destruct (svars w x) as [u|] eqn:Vx; [|discriminate]. destruct (alive w) eqn:A; [|discriminate]. injection St as <-.
    pose proof M as [M1 M2]. rewrite A in M2. destruct M2 as (f & F & Mf). rewrite F. eexists. split; [reflexivity|]. cbv beta iota delta [state_rel]. splits; auto.
    + split; [exact M1|]. cbn [alive]. eexists. split; [reflexivity|]. intros y. cbn [svars]. rewrite get_put. unfold set.
      destruct (beq_bytes_spec y x) as [->|]; [now rewrite Mf, Vx|apply Mf].
    + rewrite <- A. apply describes_set; [assumption|congruence].
    + split; assumption.
  - destruct (sglobals w x) as [u|] eqn:Vx; [|discriminate]. injection St as <-. pose proof M as [M1 M2].
    eexists. split; [reflexivity|]. cbv beta iota delta [state_rel]. splits; auto.
    + split; [|exact M2]. intros y. cbn [globals sglobals]. rewrite get_put. unfold set. destruct (beq_bytes_spec y x) as [->|]; [now rewrite M1, Vx|apply M1].
    + apply describes_gset; [assumption|congruence].
    + split; assumption.
  - destruct (alive w) eqn:A; [|discriminate]. injection St as <-.
    destruct (analyze_ok ctx lam (lambda_wf _ _ Ho)) as (caps & -> & ND & _ & C1 & C2). cbn [bind].
    assert (Hv : forall x, In x (map cname caps) -> svars w x <> None /\ x <> bs "ctx").
    { intros x I. apply find_cap_name in I. split.
      2:{ destruct Ho as (_ & _ & _ & _ & _ & Hx & _). intros ->. apply I, C2. intros [C|(C & _)]; apply (Hx (bs "ctx")); auto. }
      apply D.
      destruct (find_place x (scopes ctx)) eqn:Pl; [| |reflexivity]; exfalso; apply I, C2; intros [C|(_ & _ & [C _])]; try congruence;
        destruct Ho as (_ & _ & Ho & _); apply Ho in C as [[C _] _]; congruence. }
    destruct (create_ok m w caps (params lam) p M A ND Hv) as (m' & e & -> & M' & E' & Ln & Hh & He). cbn [bind fst snd].
    eexists. split; [reflexivity|]. cbv beta iota delta [state_rel]. splits; auto.
    + split.
      * intros j c n Hj. destruct (Nat.lt_ge_cases j (length cs)) as [J|J].
        -- rewrite nth_error_app1 in Hj by assumption. intros En. specialize (Di1 j c n Hj En). lia.
        -- rewrite nth_error_app2 in Hj by assumption. destruct (j - length cs) as [|q]; [|destruct q; discriminate]. injection Hj as <-.
           cbn [env]. intros ->. lia.
      * intros i j c d n Hi Hj Ec Ed. destruct (Nat.lt_ge_cases i (length cs)) as [I|I]; destruct (Nat.lt_ge_cases j (length cs)) as [J|J].
        -- rewrite nth_error_app1 in Hi, Hj by assumption. eapply Di2; eauto.
        -- rewrite nth_error_app1 in Hi by assumption. rewrite nth_error_app2 in Hj by assumption.
           destruct (j - length cs) as [|q]; [|destruct q; discriminate]. injection Hj as <-. cbn [env] in Ed. subst e. specialize (Di1 i c n Hi Ec). lia.
        -- rewrite nth_error_app1 in Hj by assumption. rewrite nth_error_app2 in Hi by assumption.
           destruct (i - length cs) as [|q]; [|destruct q; discriminate]. injection Hi as <-. cbn [env] in Ec. subst e. specialize (Di1 j d n Hj Ed). lia.
        -- rewrite nth_error_app2 in Hi, Hj by assumption. destruct (i - length cs) as [|q] eqn:Ei; [|destruct q; discriminate].
           destruct (j - length cs) as [|q] eqn:Ej; [|destruct q; discriminate]. lia.
    + rewrite !app_length, L. reflexivity.
    + intros j sc c Hs Hc. destruct (Nat.lt_ge_cases j (length cs)) as [J|J].
      * rewrite nth_error_app1 in Hc by assumption. rewrite nth_error_app1 in Hs by lia.
        apply (clo_rel_heap m); [eapply R; eauto|]. intros n En. apply Hh. eapply Di1; eauto.
      * rewrite nth_error_app2 in Hc by assumption. rewrite nth_error_app2 in Hs by lia. rewrite <- L in Hs.
        destruct (j - length cs) as [|q]; [|destruct q; discriminate]. injection Hc as <-. injection Hs as <-.
        exists caps. cbn [code slam sbody copy env]. splits; auto.
  - destruct (nth_error scs k) as [sc|] eqn:Hs; [|discriminate].
    destruct (Nat.eqb_spec (length args) (length (params (slam sc)))) as [La|]; [|discriminate].
    destruct (run_spec _ _ _ _ _) as [[[v own] w1]|] eqn:Rs; [|discriminate]. injection St as <-.
    destruct (nth_error cs k) as [c|] eqn:Hc; [|apply nth_error_None in Hc; assert (k < length scs) by (apply nth_error_Some; congruence); lia].
    destruct (R k sc c Hs Hc) as (caps & Q1 & Q2 & Q3 & Q4 & Q5). unfold call. rewrite Q1.
    pose proof Q3 as (H1 & H2 & H3 & H4 & H5 & H6 & H7).
    assert (Hid : forall x, x <> bs "ctx" -> hidden (env c) x = false).
    { intros x N. unfold hidden. destruct (env c); [|reflexivity]. destruct (beq_bytes_spec x (bs "ctx")); [contradiction|reflexivity]. }
    assert (Cm : map fst (combine (params (slam sc)) args) = params (slam sc)).
    { clear -La. revert args La. induction (params (slam sc)) as [|x l IH]; intros [|a args] La; try discriminate; [reflexivity|]. cbn in *. f_equal. apply IH. lia. }
    destruct (body_ok (slam sc) caps (env c) Q4 Q5 H3 H2 (fun x F => Hid x (H6 x (match F with or_introl F => or_introl F | or_intror F => or_intror (or_intror (or_introl F)) end))) (sbody sc) (params (slam sc)) (copy sc) w (combine (params (slam sc)) args) m v own w1)
      as (m' & -> & M' & E' & [Hl Hh] & D'); auto.
    + intros x. now rewrite Cm.
    + intros x I. split; [|apply Hid, H6; auto]. apply Q5. intros [C|(_ & C & _)]; [apply H3 in C; tauto|contradiction].
    + cbn [bind fst snd]. eexists. split; [reflexivity|]. cbv beta iota delta [state_rel]. splits; auto.
      * split; [|exact Di2]. intros j d n. rewrite Hl. apply Di1.
      * now rewrite length_replace.
      * intros j sd d Hsd Hd. rewrite nth_replace in Hsd. destruct (Nat.eqb_spec j k) as [->|J].
        -- rewrite Hs in Hsd. cbn [option_map] in Hsd. injection Hsd as <-. rewrite Hd in Hc. injection Hc as ->.
           exists caps. cbn [slam sbody copy]. splits; auto.
        -- apply (clo_rel_heap m); [eapply R; eauto|]. intros n En. apply Hh. intros Ec. apply J. eapply Di2; eauto.
  - injection St as <-. eexists. split; [reflexivity|]. cbv beta iota delta [state_rel]. splits; auto.
    + destruct M as [M1 _]. split; [exact M1|reflexivity].
    + split; assumption.
Qed.
Lemma steps_ok l : forall s t t', Forall (op_ok ctx) l -> state_rel s t -> steps_spec t l = Some t' -> exists s', steps ctx s l = Ok s' /\ state_rel s' t'.
Proof.
  induction l as [|o l IH]; intros s t t' Fo R St; cbn [steps steps_spec] in *.
  - injection St as <-. now exists s.
  - inversion Fo; subst. destruct (step_spec t o) as [t1|] eqn:S1; [|discriminate].
    destruct (step_ok _ _ _ _ H1 R S1) as (s1 & -> & R1). cbn [bind]. eauto.
Qed.
End Sim.

(** The capture list *)
Lemma capture_list_ok : forall l d acc rest fuel, l <> [] -> length l <= fuel -> length (acc ++ flat_map named l) <= 32 ->
  capture_list fuel (list_toks l ++ rest) d acc =
  Ok (fold_left (fun d i => match i with AllRef => true | AllValue => false | _ => d end) l d, acc ++ flat_map named l, rest).
Proof.
  induction l as [|i l IH]; intros d acc rest fuel Ne Lf La; [congruence|]. destruct fuel as [|fuel]; [cbn in Lf; lia|].
  cbn [length] in Lf. cbn [flat_map] in *. rewrite app_assoc in La |- *.
  assert (Lp : length (acc ++ named i) <= 32) by (rewrite app_length in La; lia).
  assert (Pu : forall x r, named i = [(x, r)] -> push (x, r) acc = Ok (acc ++ [(x, r)])).
  { intros x r E. unfold push. rewrite E, app_length in Lp. cbn [length] in Lp. destruct (Nat.ltb_spec (length acc) 32); [reflexivity|lia]. }
  assert (K : forall tl d', d' = match i with AllRef => true | AllValue => false | _ => d end ->
    (match tl with CId _ :: _ => False | [] => False | _ => True end) ->
    capture_list (S fuel) (item_toks i ++ tl) d acc =
      match tl with CComma :: r => capture_list fuel r d' (acc ++ named i) | CClose :: r => Ok (d', acc ++ named i, r) | _ => Panic end).
  { intros tl d' -> Nt. destruct i as [x|x| |]; cbn [item_toks app named].
    - cbn [capture_list]. rewrite (Pu x true eq_refl). reflexivity.
    - cbn [capture_list]. rewrite (Pu x false eq_refl). reflexivity.
    - rewrite app_nil_r. destruct tl as [|[]]; cbn [capture_list bind]; try contradiction; reflexivity.
    - rewrite app_nil_r. cbn [capture_list bind]. reflexivity. }
  destruct l as [|j l].
  - cbn [list_toks]. rewrite <- app_assoc. rewrite (K ([CClose] ++ rest) _ eq_refl I).
    cbn [app flat_map fold_left]. rewrite app_nil_r. reflexivity.
  - change (list_toks (i :: j :: l)) with (item_toks i ++ CComma :: list_toks (j :: l)). rewrite <- app_assoc. cbn [app].
    rewrite (K (CComma :: list_toks (j :: l) ++ rest) _ eq_refl I).
    rewrite IH; [|discriminate|cbn [length] in *; lia|assumption]. reflexivity.
Qed.
