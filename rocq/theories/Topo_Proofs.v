From Verif Require Import Common Topo_Model Topo_Spec.
From Coq Require Import Permutation.
Local Open Scope nat_scope.

(** * Strings *)
Lemma has_star_spec s : has_star s = true <-> In 42%N s.
Proof.
  unfold has_star. rewrite existsb_exists. split.
  - intros (x & H & E). apply N.eqb_eq in E. now subst.
  - intros H. exists 42%N. split; [exact H|reflexivity].
Qed.
Definition ends_name (rest : bytes) : Prop :=
  rest = [] \/ exists c r, rest = c :: r /\ (c = 91%N \/ In c [32; 9; 10; 11; 12; 13]%N).
Lemma isspace_spec c : isspace c = true <-> In c [32; 9; 10; 11; 12; 13]%N.
Proof.
  unfold isspace. cbn [In]. rewrite Bool.orb_true_iff, Bool.andb_true_iff, N.eqb_eq, !N.leb_le.
  split; [intros [H|H]; [|]; lia|intuition lia].
Qed.
Lemma ends_spec rest :
  match rest with [] => true | c :: _ => (c =? 91)%N || isspace c end = true <-> ends_name rest.
Proof.
  unfold ends_name. destruct rest as [|c r]; [split; auto|]. rewrite Bool.orb_true_iff, N.eqb_eq, isspace_spec. split.
  - intros H. right. now exists c, r.
  - intros [H|(c' & r' & H & E)]; [discriminate|]. injection H as <- <-. exact E.
Qed.

(** A name followed by the end, a bracket or a space does not start with a keyword and a space *)
Lemma kw_not kw name rest : ~ In 32%N kw -> ~ In 91%N kw -> (forall c, In c kw -> isspace c = false) ->
  ~ In 32%N name -> name <> kw -> ends_name rest -> is_prefix (kw ++ [32%N]) (name ++ rest) = false.
Proof.
  intros K1 K2 K3 N1 NE R. destruct (is_prefix (kw ++ [32%N]) (name ++ rest)) eqn:E; [|reflexivity]. exfalso.
  apply is_prefix_spec in E. destruct E as [r E]. revert name N1 NE E.
  induction kw as [|c kw IH]; intros name N1 NE E.
  - destruct name as [|x name]; [congruence|]. cbn in E. injection E as -> _. apply N1. now left.
  - destruct name as [|x name].
    + cbn [app] in E. destruct R as [->|(d & r' & -> & D)]; [discriminate|]. cbn in E. injection E as -> _.
      destruct D as [->|D]; [apply K2; now left|]. apply isspace_spec in D. rewrite K3 in D by now left. discriminate.
    + cbn [app] in E. injection E as -> E. apply (IH) with (name := name); auto.
      * intros H; apply K1; now right.
      * intros H; apply K2; now right.
      * intros d D; apply K3; now right.
      * intros H; apply N1; now right.
      * congruence.
Qed.
Lemma clean_kw kw x : In kw [bs "struct "; bs "enum "; bs "union "] -> clean (kw ++ x) = x.
Proof. intros [<-|[<-|[<-|[]]]]; reflexivity. Qed.
Lemma clean_plain name rest : good_name name -> ends_name rest -> clean (name ++ rest) = name ++ rest.
Proof.
  intros [G1 G2] R. unfold clean.
  change (bs "struct ") with (bs "struct" ++ [32%N]). change (bs "enum ") with (bs "enum" ++ [32%N]).
  change (bs "union ") with (bs "union" ++ [32%N]).
  assert (S1 : forall l : bytes, forallb (fun c => negb (isspace c) && negb (c =? 91)%N && negb (c =? 32)%N) l = true ->
     (~ In 32%N l) /\ (~ In 91%N l) /\ forall c, In c l -> isspace c = false).
  { intros l H. rewrite forallb_forall in H. splits.
    - intros X. apply H in X. discriminate.
    - intros X. apply H in X. discriminate.
    - intros c X. apply H in X. destruct (isspace c); [discriminate|reflexivity]. }
  destruct (S1 (bs "struct") eq_refl) as (A1 & A2 & A3). destruct (S1 (bs "enum") eq_refl) as (B1 & B2 & B3).
  destruct (S1 (bs "union") eq_refl) as (C1 & C2 & C3).
  rewrite !kw_not; auto; intros ->; apply G2; cbn [In]; auto.
Qed.
Lemma clean_split s : exists kw, In kw [[]; bs "struct "; bs "enum "; bs "union "] /\ s = kw ++ clean s.
Proof.
  unfold clean.
  destruct (is_prefix (bs "struct ") s) eqn:E1.
  { apply is_prefix_spec in E1. destruct E1 as [r ->]. exists (bs "struct "). split; [right; now left|reflexivity]. }
  destruct (is_prefix (bs "enum ") s) eqn:E2.
  { apply is_prefix_spec in E2. destruct E2 as [r ->]. exists (bs "enum "). split; [right; right; now left|reflexivity]. }
  destruct (is_prefix (bs "union ") s) eqn:E3.
  { apply is_prefix_spec in E3. destruct E3 as [r ->]. exists (bs "union "). split; [right; right; right; now left|reflexivity]. }
  exists []. split; [now left|reflexivity].
Qed.
Lemma field_depends_spec ty name : good_name name -> field_depends ty name = true <-> by_value ty name.
Proof.
  intros GN. unfold field_depends, by_value. destruct (has_star ty) eqn:ST.
  { split; [discriminate|]. intros [H _]. apply has_star_spec in ST. contradiction. }
  assert (NS : ~ In 42%N ty) by (intros X; apply has_star_spec in X; congruence).
  rewrite Bool.andb_true_iff, ends_spec. split.
  - intros [P E]. split; [exact NS|]. apply is_prefix_spec in P. destruct P as [rest P].
    destruct (clean_split ty) as (kw & K & T). exists kw, rest. split; [exact K|]. split.
    + now rewrite T, P.
    + rewrite P in E. rewrite skipn_app, skipn_all, Nat.sub_diag in E. exact E.
  - intros [_ (kw & rest & K & T & R)].
    assert (C : clean ty = name ++ rest).
    { rewrite T. destruct K as [<-|K].
      - cbn [app]. now apply clean_plain.
      - now apply clean_kw. }
    rewrite C. split; [apply is_prefix_spec; now exists rest|].
    rewrite skipn_app, skipn_all, Nat.sub_diag. exact R.
Qed.

Lemma NoDup_app_intro' {A} (a b : list A) : NoDup a -> NoDup b -> (forall x, In x a -> In x b -> False) -> NoDup (a ++ b).
Proof.
  induction a as [|x a IH]; cbn; auto. intros H1 H2 H3. inversion H1; subst. constructor.
  - intros X. apply in_app_or in X. destruct X; [contradiction|]. eapply H3; [now left|eauto].
  - apply IH; auto. intros y Y1 Y2. eapply H3; [right; eauto|eauto].
Qed.
Lemma destruct_last {A} (l : list A) : l = [] \/ exists l' x, l = l' ++ [x].
Proof. destruct l as [|y l]; [now left|]. right. destruct (@exists_last A (y :: l)) as (l' & x & E); [discriminate|]. eauto. Qed.

Section Sort.
Variable nodes : list node.
Hypothesis GN : good_names nodes.
Notation n := (length nodes).

Lemma emitted_spec order i : Topo_Model.emitted order i = true <-> In i order.
Proof.
  unfold Topo_Model.emitted. rewrite existsb_exists. split.
  - intros (x & H & E). apply Nat.eqb_eq in E. now subst.
  - intros H. exists i. split; [exact H|apply Nat.eqb_refl].
Qed.
Lemma node_at_nth i a : nth_error nodes i = Some a -> node_at nodes i = a.
Proof. intros H. unfold node_at. now apply nth_error_nth. Qed.
Lemma depends_holds a b m : In b nodes -> dep_name b = Some m -> struct_depends_on a m = true <-> holds a b.
Proof.
  intros Hb D.
  assert (TN : type_name b m) by (destruct b; cbn in *; congruence).
  assert (TU : forall m', type_name b m' -> m' = m) by (intros m' X; destruct b; cbn in *; congruence).
  pose proof (GN b m Hb TN) as G.
  assert (X : struct_depends_on a m = existsb (fun f => match f with Some ty => field_depends ty m | None => false end) (members a))
    by now destruct a.
  rewrite X, existsb_exists. split.
  - intros (f & I & F). destruct f as [ty|]; [|discriminate]. exists ty, m. splits; auto. now apply field_depends_spec.
  - intros (ty & m' & I & T & V). rewrite (TU m' T) in V. exists (Some ty). split; [exact I|]. now apply field_depends_spec.
Qed.
Lemma can_emit_needs order i : i < n -> can_emit nodes order i = true -> forall j, needs nodes i j -> In j order.
Proof.
  intros I C j (NE & a & b & Ha & Hb & H). unfold can_emit in C. rewrite forallb_forall in C.
  assert (J : j < n) by (apply nth_error_Some; congruence).
  specialize (C j ltac:(apply in_seq; lia)).
  destruct (Nat.eqb_spec i j); [congruence|]. cbn [orb] in C.
  destruct (Topo_Model.emitted order j) eqn:E; [now apply emitted_spec|]. cbn [orb] in C.
  rewrite (node_at_nth j b Hb), (node_at_nth i a Ha) in C.
  pose proof H as (ty & m & _ & T & _). assert (D : dep_name b = Some m) by (destruct b; cbn in *; try contradiction; congruence).
  rewrite D in C. apply (depends_holds a b m (nth_error_In _ _ Hb) D) in H. rewrite H in C. discriminate.
Qed.
Lemma not_can_emit order i : i < n -> can_emit nodes order i = false -> exists j, needs nodes i j /\ ~ In j order.
Proof.
  intros I C. unfold can_emit in C.
  assert (X : exists j, In j (seq 0 n) /\ ((i =? j) || Topo_Model.emitted order j ||
    match dep_name (node_at nodes j) with Some m => negb (struct_depends_on (node_at nodes i) m) | None => true end) = false).
  { revert C. generalize (seq 0 n). induction l as [|j l IH]; cbn [forallb]; [discriminate|].
    intros H. apply Bool.andb_false_iff in H. destruct H as [H|H].
    - exists j. split; [now left|exact H].
    - destruct (IH H) as (j' & I' & H'). exists j'. split; [now right|exact H']. }
  destruct X as (j & Hj & X). apply in_seq in Hj. apply Bool.orb_false_iff in X. destruct X as [X D].
  apply Bool.orb_false_iff in X. destruct X as [NE EM].
  apply Nat.eqb_neq in NE.
  exists j. split.
  - split; [exact NE|]. destruct (nth_error_lt nodes i I) as [a Ha]. destruct (nth_error_lt nodes j) as [b Hb]; [lia|].
    exists a, b. splits; auto. rewrite (node_at_nth _ _ Ha), (node_at_nth _ _ Hb) in D.
    destruct (dep_name b) as [m|] eqn:DN; [|discriminate]. apply Bool.negb_false_iff in D.
    eapply depends_holds; eauto. eapply nth_error_In; eauto.
  - intros H. apply emitted_spec in H. congruence.
Qed.

Definition ready (order : list nat) (i : nat) : bool := is_trait (node_at nodes i) || can_emit nodes order i.
Lemma visit_eq order ch i : visit nodes (order, ch) i =
  if Topo_Model.emitted order i then (order, ch) else if ready order i then (order ++ [i], true) else (order, ch).
Proof. unfold visit, ready. destruct (Topo_Model.emitted order i); [reflexivity|]. now destruct (is_trait (node_at nodes i)), (can_emit nodes order i). Qed.

Definition inv (order : list nat) : Prop :=
  NoDup order /\ (forall i, In i order -> i < n) /\
  forall l1 i l2, order = l1 ++ i :: l2 -> ready l1 i = true.
Lemma inv_snoc order i : inv order -> i < n -> Topo_Model.emitted order i = false -> ready order i = true -> inv (order ++ [i]).
Proof.
  intros (I1 & I2 & I3) L E R. unfold inv. splits.
  - apply NoDup_app_intro'; [exact I1|repeat constructor; intros []|]. intros x H [<-|[]]. apply emitted_spec in H. congruence.
  - intros j H. apply in_app_or in H. destruct H as [H|[<-|[]]]; auto.
  - intros l1 j l2 H. destruct (destruct_last l2) as [->|(l2' & x & ->)].
    + apply app_inj_tail in H. destruct H as [<- <-]. exact R.
    + change (l1 ++ j :: l2' ++ [x]) with (l1 ++ (j :: l2') ++ [x]) in H. rewrite app_assoc in H.
      apply app_inj_tail in H. destruct H as [H _]. now apply (I3 l1 j l2').
Qed.
Lemma fold_visit : forall l order ch, (forall i, In i l -> i < n) -> inv order ->
  let '(order', ch') := fold_left (visit nodes) l (order, ch) in
  inv order' /\ length order <= length order' /\
  (ch = true -> ch' = true) /\
  (ch' = true -> ch = true \/ length order < length order') /\
  (ch' = false -> order' = order /\ forall i, In i l -> Topo_Model.emitted order i = true \/ ready order i = false).
Proof.
  induction l as [|i l IH]; intros order ch L I.
  - cbn. split; [exact I|]. split; [lia|]. split; [auto|]. split; [auto|]. intros _. split; [reflexivity|]. intros i [].
  - cbn [fold_left]. rewrite visit_eq.
    assert (L' : forall j, In j l -> j < n) by (intros; apply L; now right).
    destruct (Topo_Model.emitted order i) eqn:E; [|destruct (ready order i) eqn:R].
    + specialize (IH order ch L' I). destruct (fold_left (visit nodes) l (order, ch)) as [o' c'].
      destruct IH as (A & B & T & C & D). splits; auto. intros X. destruct (D X) as [-> D2]. split; [reflexivity|].
      intros j [<-|J]; auto.
    + assert (I' : inv (order ++ [i])) by (apply inv_snoc; auto; apply L; now left).
      specialize (IH (order ++ [i]) true L' I'). destruct (fold_left (visit nodes) l (order ++ [i], true)) as [o' c'].
      destruct IH as (A & B & T & C & D). rewrite app_length in B. cbn in B. splits; auto; try lia.
      intros X. rewrite (T eq_refl) in X. discriminate.
    + specialize (IH order ch L' I). destruct (fold_left (visit nodes) l (order, ch)) as [o' c'].
      destruct IH as (A & B & T & C & D). splits; auto. intros X. destruct (D X) as [-> D2]. split; [reflexivity|].
      intros j [<-|J]; auto.
Qed.

Definition stable (order : list nat) : Prop :=
  forall i, i < n -> Topo_Model.emitted order i = true \/ ready order i = false.
Lemma passes_spec : forall k order, inv order ->
  inv (passes nodes k order) /\ (stable (passes nodes k order) \/ length order + k <= length (passes nodes k order)).
Proof.
  induction k as [|k IH]; intros order I.
  - cbn. split; [exact I|]. right. lia.
  - cbn [passes]. unfold pass.
    pose proof (fold_visit (seq 0 n) order false ltac:(intros i Hi; apply in_seq in Hi; lia) I) as F.
    destruct (fold_left (visit nodes) (seq 0 n) (order, false)) as [o' c'].
    destruct F as (A & B & T & C & D). destruct c'.
    + destruct (IH o' A) as [I' [S|S]]; split; auto. destruct (C eq_refl); [discriminate|]. right. lia.
    + destruct (D eq_refl) as [-> D2]. split; [exact A|]. left. intros i Hi. apply D2. apply in_seq. lia.
Qed.
Lemma inv_length order : inv order -> length order <= n.
Proof.
  intros (I1 & I2 & _). rewrite <- (seq_length n 0). apply NoDup_incl_length; [exact I1|].
  intros i Hi. apply in_seq. specialize (I2 i Hi). lia.
Qed.
Lemma inv_nil : inv [].
Proof. unfold inv. splits; [constructor|intros i []|]. intros [|] ? ? H; discriminate. Qed.
Lemma main_stable : inv (passes nodes (n * n) []) /\ stable (passes nodes (n * n) []).
Proof.
  destruct (passes_spec (n * n) [] inv_nil) as [I [S|S]]; split; auto.
  cbn [length plus] in S. pose proof (inv_length _ I) as L.
  assert (N1 : n <= 1) by nia. intros i Hi. left.
  apply emitted_spec. assert (n = 1) by lia. assert (i = 0) by lia. subst i.
  destruct (passes nodes (n * n) []) as [|x o] eqn:E; [cbn in S; nia|].
  destruct I as (_ & I2 & _). specialize (I2 x (or_introl eq_refl)). left. lia.
Qed.
Lemma acyclic_emitted i : acyclic_from nodes i -> i < n -> In i (passes nodes (n * n) []).
Proof.
  intros A. induction A as [i _ IH]. intros Hi. destruct main_stable as [I S].
  destruct (S i Hi) as [E|R]; [now apply emitted_spec|]. unfold ready in R.
  apply Bool.orb_false_iff in R. destruct R as [_ R]. destruct (not_can_emit _ i Hi R) as (j & N & NI).
  exfalso. apply NI. apply IH; [exact N|]. destruct N as (_ & a & b & _ & Hb & _). apply nth_error_Some. congruence.
Qed.
Lemma trait_needs_nothing i j : i < n -> is_trait (node_at nodes i) = true -> ~ needs nodes i j.
Proof.
  intros Hi T (_ & a & b & Ha & _ & ty & m & In' & _). rewrite (node_at_nth _ _ Ha) in T. destruct a; try discriminate. destruct In'.
Qed.
Lemma main_order i j : acyclic_from nodes i -> needs nodes i j ->
  exists l1 l2 l3, passes nodes (n * n) [] = l1 ++ j :: l2 ++ i :: l3.
Proof.
  intros A N. assert (Hi : i < n) by (destruct N as (_ & a & b & Ha & _); apply nth_error_Some; congruence).
  pose proof (acyclic_emitted i A Hi) as E. apply in_split in E. destruct E as (p & q & E).
  destruct main_stable as [(_ & _ & I3) _]. specialize (I3 p i q E). unfold ready in I3.
  apply Bool.orb_true_iff in I3. destruct I3 as [T|C].
  - exfalso. eapply trait_needs_nothing; eauto.
  - pose proof (can_emit_needs p i Hi C j N) as J. apply in_split in J. destruct J as (a & b & ->).
    exists a, b, q. rewrite E, <- app_assoc. reflexivity.
Qed.
Lemma final_perm_any : Permutation (final_order nodes) (seq 0 n).
Proof.
  destruct main_stable as [(I1 & I2 & _) _]. unfold final_order. set (o := passes nodes (n * n) []) in *.
  apply NoDup_Permutation.
  - apply NoDup_app_intro'; auto.
    + apply NoDup_filter. apply seq_NoDup.
    + intros x Hx Hy. apply filter_In in Hy. destruct Hy as [_ Hy]. apply Bool.negb_true_iff in Hy.
      apply emitted_spec in Hx. congruence.
  - apply seq_NoDup.
  - intros x. rewrite in_app_iff, filter_In, in_seq. split.
    + intros [H|[H _]]; [specialize (I2 x H); lia|lia].
    + intros H. destruct (Topo_Model.emitted o x) eqn:E; [left; now apply emitted_spec|right]. split; [lia|reflexivity].
Qed.
Lemma final_before i j : acyclic_from nodes i -> needs nodes i j ->
  exists l1 l2 l3, final_order nodes = l1 ++ j :: l2 ++ i :: l3.
Proof.
  intros A N. destruct (main_order i j A N) as (l1 & l2 & l3 & E). unfold final_order. cbv zeta.
  generalize (filter (fun i0 : nat => negb (emitted (passes nodes (n * n) []) i0)) (seq 0 n)). intros q.
  exists l1, l2, (l3 ++ q). rewrite E, <- app_assoc. cbn [app]. rewrite <- app_assoc. reflexivity.
Qed.
End Sort.

Lemma nth_error_seq0 i k : i < k -> nth_error (seq 0 k) i = Some i.
Proof. intros H. rewrite (nth_error_nth' _ 0) by now rewrite seq_length. now rewrite seq_nth. Qed.
Lemma map_node_at l : map (node_at l) (seq 0 (length l)) = l.
Proof.
  apply list_ext. intros i. destruct (lt_dec i (length l)) as [L|G].
  - erewrite map_nth_error by now apply nth_error_seq0.
    destruct (nth_error_lt l i L) as [a Ha]. rewrite Ha. f_equal. now apply node_at_nth.
  - rewrite (proj2 (nth_error_None _ _)), (proj2 (nth_error_None _ _)); auto; rewrite ?map_length, ?seq_length; lia.
Qed.
