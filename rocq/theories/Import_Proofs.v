From Verif Require Import Common Import_Model Import_Spec.
Local Open Scope nat_scope.

Lemma same_spec a b : same a b = true <-> a = b.
Proof.
  destruct a as [x|], b as [y|]; cbn; split; intros H; try discriminate; auto.
  - apply beq_bytes_true in H. now subst.
  - inversion H; subst. apply beq_bytes_refl.
Qed.
Lemma of_file_app w a b : of_file w (a ++ b) = of_file w a ++ of_file w b.
Proof. apply filter_app. Qed.
Lemma alike_refl l : alike l l.
Proof. split; reflexivity. Qed.
Lemma alike_attach t w l m : alike (of_file w l) m -> alike (of_file w (attach t l)) m.
Proof.
  destruct l as [|n l]; [auto|]. cbn [attach of_file filter nfile]. destruct (same (nfile n) w) eqn:E; [|auto].
  fold (of_file w l). intros [A B]. split; [exact A|exact B].
Qed.
Lemma attach_none t w l : of_file w l = [] -> of_file w (attach t l) = [].
Proof. destruct l as [|n l]; [auto|]. cbn [attach of_file filter nfile]. now destruct (same (nfile n) w). Qed.
Lemma is_imported_spec f s : is_imported f s = true <-> In f (imported s).
Proof.
  unfold is_imported. rewrite existsb_exists. split.
  - intros (x & I & E). apply beq_bytes_true in E. now subst.
  - intros I. exists f. split; [auto|apply beq_bytes_refl].
Qed.

Section files.
Variable access : bytes -> bool.
Variable real : bytes -> bytes.
Variable content : bytes -> option (list item).
Variable search_dirs : list bytes.
Variable main : bytes.
Notation resolve := (resolve access real search_dirs).
Notation load := (load access real content search_dirs main).
Notation import := (import access real content search_dirs).
Notation reach := (reach access real content search_dirs).
Notation current := (current main).

Definition load_items (fuel : nat) (who pre : option bytes) :=
  fix go (items : list item) (s : st) : res (list node * st) :=
      match items with
      | [] => Ok ([], s)
      | t :: rest =>
        do '(h, s) <- match it t with
                      | Def n => Ok ([{| nfile := who; nprefix := pre; nname := n; ncfg := cfg t; nattrs := attrs t |}], s)
                      | Imp i => import (load fuel) (current who) pre i s
                      end;
        do '(r, s) <- go rest s;
        Ok (attach t h ++ r, s)
      end.
Lemma load_unfold fuel who pre items s : load (S fuel) who pre items s = load_items fuel who pre items s.
Proof. reflexivity. Qed.
Lemma load_items_cons fuel who pre t rest s : load_items fuel who pre (t :: rest) s =
  (do '(h, s) <- match it t with
                 | Def n => Ok ([{| nfile := who; nprefix := pre; nname := n; ncfg := cfg t; nattrs := attrs t |}], s)
                 | Imp i => import (load fuel) (current who) pre i s
                 end;
   do '(r, s) <- load_items fuel who pre rest s; Ok (attach t h ++ r, s)).
Proof. reflexivity. Qed.

(** What a run of the parser over some items of a file adds *)
Definition adds (who pre : option bytes) (items : list item) (out : list node) (s s' : st) : Prop :=
  exists new, imported s' = new ++ imported s /\ NoDup new /\ (forall f, In f new -> ~ In f (imported s))
  /\ of_file who out = declared who pre items
  /\ (forall f, In f new -> exists its p, content f = Some its /\ alike (of_file (Some f) out) (declared (Some f) p its)
        /\ (forall i, In i (imports its) -> In (resolve f (path i)) (imported s')))
  /\ (forall f, ~ In f new -> Some f <> who -> of_file (Some f) out = [])
  /\ (who <> None -> of_file None out = [])
  /\ (forall i, In i (imports items) -> In (resolve (current who) (path i)) (imported s'))
  /\ (forall f, In f new -> reach (current who) items f).

Lemma reach_mono cur items items' f : (forall i, In i (imports items) -> In i (imports items')) -> reach cur items f -> reach cur items' f.
Proof. intros H R. induction R; [apply reach_import; auto|eapply reach_step; eauto]. Qed.
Lemma reach_trans cur items f its g : reach cur items f -> content f = Some its -> reach f its g -> reach cur items g.
Proof. intros R C H. induction H; [eapply reach_step; eauto|eapply reach_step; eauto]. Qed.

Lemma load_adds fuel : forall who pre items s out s',
  (forall f, who = Some f -> In f (imported s)) ->
  load fuel who pre items s = Ok (out, s') -> adds who pre items out s s'.
Proof.
  induction fuel as [|fuel IHf]; intros who pre items s out s' W E; [discriminate|]. rewrite load_unfold in E.
  revert s out s' W E. induction items as [|t rest IH]; intros s out s' W E.
  - cbn in E. inversion E; subst. exists []. splits; auto; try (intros ? []); constructor.
  - rewrite load_items_cons in E. destruct (it t) as [n|i] eqn:T.
    + cbn [bind] in E. destruct (load_items fuel who pre rest s) as [[r s1]| | |] eqn:E1; try discriminate. cbn [bind] in E.
      inversion E; subst. destruct (IH _ _ _ W E1) as (new & A1 & A2 & A3 & A4 & A5 & A6 & A7 & A8 & A9).
      cbn [attach nfile nprefix nname app].
      set (d := {| nfile := who; nprefix := pre; nname := n; ncfg := cfg t; nattrs := attrs t |}).
      assert (D : forall w, of_file w (d :: r) = if same who w then d :: of_file w r else of_file w r) by reflexivity.
      assert (II : imports (t :: rest) = imports rest) by (unfold imports; cbn [flat_map]; now rewrite T).
      exists new. splits; auto.
      * rewrite D, (proj2 (same_spec who who) eq_refl), A4. unfold declared at 2. cbn [flat_map]. rewrite T. reflexivity.
      * intros f I. rewrite D. destruct (same who (Some f)) eqn:S; [|now apply A5].
        apply same_spec in S. exfalso. apply (A3 f I). now apply W.
      * intros f I N. rewrite D. destruct (same who (Some f)) eqn:S; [apply same_spec in S; congruence|now apply A6].
      * intros N. rewrite D. destruct (same who None) eqn:S; [apply same_spec in S; congruence|now apply A7].
      * rewrite II. auto.
      * intros f I. eapply reach_mono; [|apply A9, I]. now rewrite II.
    + assert (II : imports (t :: rest) = i :: imports rest) by (unfold imports; cbn [flat_map]; now rewrite T).
      assert (DD : declared who pre (t :: rest) = declared who pre rest) by (unfold declared; cbn [flat_map]; now rewrite T).
      destruct (import (load fuel) (current who) pre i s) as [[h s1]| | |] eqn:EI; try discriminate. cbn [bind] in E.
      destruct (load_items fuel who pre rest s1) as [[r s2]| | |] eqn:E1; try discriminate. cbn [bind] in E.
      inversion E; subst. unfold Import_Model.import in EI.
      destruct (match sel i with Some l => 32 <? length l | None => false end); [discriminate|]. cbv zeta in EI.
      set (f := resolve (current who) (path i)) in *.
      destruct (is_imported f s) eqn:M.
      * inversion EI; subst. destruct (IH _ _ _ W E1) as (new & A1 & A2 & A3 & A4 & A5 & A6 & A7 & A8 & A9).
        cbn [attach app]. apply is_imported_spec in M. exists new. splits; auto.
        -- now rewrite DD.
        -- intros j I. rewrite II in I. destruct I as [<-|I]; [|now apply A8]. fold f. rewrite A1. apply in_or_app. auto.
        -- intros g I. eapply reach_mono; [|apply A9, I]. rewrite II. now right.
      * assert (M' : ~ In f (imported s)) by (intros X; apply is_imported_spec in X; congruence).
        destruct (content f) as [its|] eqn:C; [|discriminate].
        assert (WF : forall g, Some f = Some g -> In g (imported (register f i (mark f s)))).
        { intros g G. inversion G; subst. cbn. now left. }
        destruct (IHf _ _ _ _ _ _ WF EI) as (newh & B1 & B2 & B3 & B4 & B5 & B6 & B7 & B8 & B9).
        cbn [imported register mark] in B1, B3.
        assert (W1 : forall g, who = Some g -> In g (imported s1)).
        { intros g G. rewrite B1. apply in_or_app. right. right. now apply W. }
        destruct (IH _ _ _ W1 E1) as (newr & A1 & A2 & A3 & A4 & A5 & A6 & A7 & A8 & A9).
        assert (Sub : forall g, In g (imported s1) -> In g (imported s')) by (intros g G; rewrite A1; apply in_or_app; auto).
        assert (Wf : who <> Some f) by (intros X; apply M', W, X).
        assert (Fh : ~ In f newh) by (intros X; apply (B3 f X); now left).
        assert (H0 : of_file who h = []).
        { destruct who as [w|] eqn:EW; [|apply B7; discriminate]. apply B6; [|congruence].
          intros X. apply (B3 w X). right. now apply W. }
        assert (R1 : forall g, In g newh \/ g = f -> of_file (Some g) r = []).
        { intros g G. apply A6.
          - intros X. apply (A3 g X). rewrite B1. apply in_or_app. destruct G as [G| ->]; [now left|right; now left].
          - intros X. destruct G as [G| ->]; [|congruence]. apply (B3 g G). right. apply W. now symmetry. }
        exists (newr ++ newh ++ [f]). splits.
        -- rewrite A1, B1. now rewrite <- !app_assoc.
        -- assert (K : NoDup (newh ++ [f])).
           { clear - B2 Fh. induction newh as [|x newh IH]; [repeat constructor; auto|]. inversion B2; subst. cbn [app]. constructor.
             - intros X. apply in_app_or in X as [X|[->|[]]]; [contradiction|]. apply Fh. now left.
             - apply IH; auto. intros X. apply Fh. now right. }
           assert (DJ : forall x, In x newr -> ~ In x (newh ++ [f])).
           { intros x X Y. apply (A3 x X). rewrite B1. apply in_app_or in Y as [Y|[->|[]]]; apply in_or_app; [now left|right; now left]. }
           clear - A2 K DJ. induction newr as [|x newr IH]; [auto|]. inversion A2; subst. cbn [app]. constructor.
           ++ intros X. apply in_app_or in X as [X|X]; [contradiction|]. apply (DJ x); [now left|auto].
           ++ apply IH; auto. intros y Y. apply DJ. now right.
        -- intros g G X. apply in_app_or in G as [G|G].
           ++ apply (A3 g G). rewrite B1. apply in_or_app. right. now right.
           ++ apply in_app_or in G as [G|[->|[]]]; [apply (B3 g G); now right|contradiction].
        -- rewrite of_file_app, DD, A4. rewrite attach_none by auto. reflexivity.
        -- intros g G. apply in_app_or in G as [G|G].
           ++ destruct (A5 g G) as (gi & p & C1 & C2 & C3). exists gi, p. splits; auto.
              rewrite of_file_app, attach_none; [exact C2|]. apply B6.
              ** intros X. apply (A3 g G). rewrite B1. apply in_or_app. now left.
              ** intros X. inversion X; subst. apply (A3 f G). rewrite B1. apply in_or_app. right. now left.
           ++ assert (K : In g newh \/ g = f) by (apply in_app_or in G as [G|[->|[]]]; auto).
              rewrite of_file_app, (R1 g K), app_nil_r. destruct K as [K| ->].
              ** destruct (B5 g K) as (gi & p & C1 & C2 & C3). exists gi, p. splits; auto. now apply alike_attach.
              ** exists its, (prefix_of f i pre). splits; auto. apply alike_attach. rewrite B4. apply alike_refl.
        -- intros g G N. rewrite of_file_app, A6; [|intros X; apply G; apply in_or_app; auto|auto]. rewrite attach_none; [reflexivity|].
           apply B6; [intros X; apply G; apply in_or_app; right; apply in_or_app; auto|].
           intros X. inversion X; subst. apply G. apply in_or_app. right. apply in_or_app. right. now left.
        -- intros N. rewrite of_file_app, A7 by auto. rewrite attach_none; [reflexivity|]. apply B7. discriminate.
        -- intros j I. rewrite II in I. destruct I as [<-|I]; [|now apply A8]. fold f. apply Sub. rewrite B1. apply in_or_app. right. now left.
        -- assert (Rf : reach (current who) (t :: rest) f) by (apply reach_import; rewrite II; now left).
           intros g G. apply in_app_or in G as [G|G].
           ++ eapply reach_mono; [|apply A9, G]. rewrite II. now right.
           ++ apply in_app_or in G as [G|[->|[]]]; [|auto]. eapply reach_trans; eauto.
Qed.

(** Fuel: one step for each file not yet read *)
Definition left (universe : list bytes) (s : st) : nat := length (filter (fun f => negb (is_imported f s)) universe).
Lemma filter_le {A} (p q : A -> bool) l : (forall x, p x = true -> q x = true) -> length (filter p l) <= length (filter q l).
Proof.
  intros H. induction l as [|x l IH]; [auto|]. cbn [filter]. destruct (p x) eqn:E.
  - rewrite (H x E). cbn. lia.
  - destruct (q x); cbn; lia.
Qed.
Lemma filter_lt {A} (p q : A -> bool) l y : (forall x, p x = true -> q x = true) -> In y l -> q y = true -> p y = false ->
  length (filter p l) < length (filter q l).
Proof.
  intros H. induction l as [|x l IH]; intros I Q P; [destruct I|]. cbn [filter]. destruct I as [->|I].
  - rewrite P, Q. cbn. pose proof (filter_le p q l H). lia.
  - specialize (IH I Q P). destruct (p x) eqn:E; [rewrite (H x E); cbn; lia|]. destruct (q x); cbn; lia.
Qed.
Lemma left_le u s s' : (forall f, In f (imported s) -> In f (imported s')) -> left u s' <= left u s.
Proof.
  intros H. apply filter_le. intros f E. destruct (is_imported f s) eqn:X; [|reflexivity].
  apply is_imported_spec, H, is_imported_spec in X. rewrite X in E. discriminate.
Qed.
Lemma load_fuel universe : (forall f, content f <> None -> In f universe) ->
  forall fuel who pre items s, (forall f, who = Some f -> In f (imported s)) ->
  left universe s < fuel -> load fuel who pre items s <> Fuel.
Proof.
  intros U. induction fuel as [|fuel IHf]; intros who pre items s W L; [lia|]. rewrite load_unfold.
  revert s W L. induction items as [|t rest IH]; intros s W L; [discriminate|]. rewrite load_items_cons.
  destruct (it t) as [n|i].
  - cbn [bind]. specialize (IH s W L). destruct (load_items fuel who pre rest s) as [[r s1]| | |]; cbn [bind]; congruence.
  - assert (K : import (load fuel) (current who) pre i s <> Fuel /\
       (forall h s1, import (load fuel) (current who) pre i s = Ok (h, s1) -> forall f, In f (imported s) -> In f (imported s1))).
    { unfold Import_Model.import. destruct (match sel i with Some l => 32 <? length l | None => false end); [split; discriminate|]. cbv zeta.
      set (f := resolve (current who) (path i)). destruct (is_imported f s) eqn:M.
      { split; [discriminate|]. intros h s1 E. inversion E; subst. auto. }
      destruct (content f) as [its|] eqn:C; [|split; discriminate].
      assert (WW : forall g, Some f = Some g -> In g (imported (register f i (mark f s)))).
      { intros g G. inversion G; subst. now left. }
      split.
      - apply IHf; [exact WW|]. assert (left universe (register f i (mark f s)) < left universe s); [|lia].
        apply filter_lt with (y := f).
        + intros x X. unfold is_imported in *. cbn [imported register mark existsb] in X.
          destruct (beq_bytes x f); [discriminate|exact X].
        + apply U. congruence.
        + now rewrite M.
        + unfold is_imported. cbn [imported register mark existsb]. now rewrite beq_bytes_refl.
      - intros h s1 E g G. destruct (load_adds _ _ _ _ _ _ _ WW E) as (new & A1 & _). rewrite A1. apply in_or_app. right. now right. }
    destruct K as [K1 K2]. destruct (import (load fuel) (current who) pre i s) as [[h s1]| | |]; cbn [bind]; try congruence.
    specialize (K2 h s1 eq_refl).
    assert (Q : load_items fuel who pre rest s1 <> Fuel).
    { apply IH; [intros f F; apply K2, W, F|]. pose proof (left_le universe s s1 K2). lia. }
    destruct (load_items fuel who pre rest s1) as [[r s2]| | |]; cbn [bind]; congruence.
Qed.
End files.
