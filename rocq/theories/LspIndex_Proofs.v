From Verif Require Import Common LspIndex_Model LspIndex_Spec.
From Coq Require Import Permutation Sorting.Sorted.
Local Open Scope Z_scope.

Lemma compare_le a b : compare_tokens a b <= 0 <-> before a b \/ same_place a b.
Proof. unfold compare_tokens, before, same_place. destruct (Z.eqb_spec (t_line a) (t_line b)); lia. Qed.

Lemma build_spec pushes t : In t (build pushes) <-> In t pushes /\ 0 <= t_line t /\ 0 <= t_col t.
Proof.
  unfold build.
  assert (G : forall l b, In t (fold_left builder_push l b) <-> In t b \/ (In t l /\ 0 <= t_line t /\ 0 <= t_col t)).
  { induction l as [|u l IH]; intros b; cbn [fold_left In].
    - tauto.
    - rewrite IH. unfold builder_push. destruct (Z.ltb_spec (t_line u) 0); cbn [orb].
      + split; [tauto|]. intros [H1|[[<-|H1] H2]]; [tauto|lia|tauto].
      + destruct (Z.ltb_spec (t_col u) 0).
        * split; [tauto|]. intros [H1|[[<-|H1] H2]]; [tauto|lia|tauto].
        * rewrite in_app_iff. cbn [In]. split.
          -- intros [[H1|[<-|[]]]|H1]; tauto || (right; split; [now left|lia]) || tauto.
          -- intros [H1|[[<-|H1] H2]]; tauto. }
  rewrite G. cbn. tauto.
Qed.

(** The tokens [encode] keeps *)
Fixpoint dedup (b : option tok) (l : list tok) : list tok :=
  match l with
  | [] => []
  | t :: l' =>
      if match b with Some u => (t_line t =? t_line u) && (t_col t =? t_col u) | None => false end
      then dedup (Some t) l' else t :: dedup (Some t) l'
  end.
Lemma decode_encode : forall l b pl pc, 
  (forall t, In t l -> pl <= t_line t) ->
  StronglySorted (fun a b => compare_tokens a b <= 0) l ->
  decode pl pc (encode b pl pc l) = dedup b l.
Proof.
  induction l as [|t l IH]; intros b pl pc P S; [reflexivity|].
  inversion S as [|? ? S1 S2]; subst. rewrite Forall_forall in S2.
  assert (P1 : pl <= t_line t) by (apply P; now left).
  cbn [encode dedup]. destruct (match b with Some u => _ | None => _ end).
  - apply IH; auto. intros u U. apply P. now right.
  - cbn [decode].
    replace (pl + (t_line t - pl)) with (t_line t) by lia.
    assert (C : (if t_line t - pl =? 0 then pc + (if t_line t - pl =? 0 then t_col t - pc else t_col t) else
                 if t_line t - pl =? 0 then t_col t - pc else t_col t) = t_col t)
      by (destruct (t_line t - pl =? 0); lia).
    rewrite C. rewrite IH; auto.
    + now destruct t.
    + intros u U. specialize (S2 u U). apply compare_le in S2. unfold before, same_place in S2. lia.
Qed.

Definition tle a b := compare_tokens a b <= 0.
Lemma dedup_in b l t : In t (dedup b l) -> In t l.
Proof.
  revert b. induction l as [|u l IH]; intros b; cbn [dedup]; [auto|].
  destruct (match b with Some _ => _ | None => _ end); cbn [In]; intros H; [right|destruct H; [now left|right]]; eauto.
Qed.
Lemma dedup_sorted : forall l b, StronglySorted tle l -> (forall u, b = Some u -> Forall (tle u) l) ->
  StronglySorted before (dedup b l) /\ (forall u, b = Some u -> Forall (before u) (dedup b l)).
Proof.
  induction l as [|t l IH]; intros b S B; [split; [constructor|intros; constructor]|].
  inversion S as [|? ? S1 S2]; subst. cbn [dedup].
  destruct (IH (Some t) S1) as [A1 A2]; [intros u U; injection U as <-; exact S2|]. specialize (A2 t eq_refl).
  destruct b as [u|].
  - specialize (B u eq_refl). inversion B as [|? ? B1 B2]; subst.
    apply compare_le in B1.
    assert (Q : (t_line t =? t_line u) && (t_col t =? t_col u) = true <-> same_place u t).
    { unfold same_place. rewrite Bool.andb_true_iff, !Z.eqb_eq. intuition congruence. }
    destruct ((t_line t =? t_line u) && (t_col t =? t_col u)) eqn:E.
    + split; [exact A1|]. intros v V. injection V as <-. destruct Q as [Q _]. specialize (Q eq_refl).
      eapply Forall_impl; [|exact A2]. intros w. unfold before, same_place in *. lia.
    + assert (BT : before u t) by (destruct B1 as [B1|B1]; [exact B1|]; apply Q in B1; discriminate).
      split; [constructor; auto|]. intros v V. injection V as <-. constructor; [exact BT|].
      eapply Forall_impl; [|exact A2]. intros w. unfold before, same_place in *. lia.
  - split; [constructor; auto|discriminate].
Qed.
Lemma dedup_complete : forall l b t, In t l -> (exists u, In u (dedup b l) /\ same_place t u) \/ (exists u, b = Some u /\ same_place t u).
Proof.
  induction l as [|v l IH]; intros b t I; [destruct I|]. cbn [dedup].
  assert (H : (exists u, In u (dedup (Some v) l) /\ same_place t u) \/ same_place t v).
  { destruct I as [->|I].
    - right. unfold same_place; auto.
    - destruct (IH (Some v) t I) as [H|(u & U & H)]; [now left|]. injection U as <-. now right. }
  destruct (match b with Some u => _ | None => _ end) eqn:E.
  - destruct H as [H|H]; [now left|]. right. destruct b as [u|]; [|discriminate]. exists u. split; [reflexivity|].
    apply Bool.andb_true_iff in E. rewrite !Z.eqb_eq in E. unfold same_place in *. lia.
  - left. destruct H as [(u & U & H)|H]; [exists u; split; [now right|exact H]|]. exists v. split; [now left|exact H].
Qed.

(** * The index *)
Lemma run_index_app ops o : run_index (ops ++ [o]) = step (run_index ops) o.
Proof. unfold run_index. now rewrite fold_left_app. Qed.
Lemma find_loop_app line col : forall l best r,
  find_loop best line col (l ++ [r]) =
  if (start_line r <=? line) && (line <=? end_line r) && negb ((line =? start_line r) && (col <? start_col r))
     && negb ((line =? end_line r) && (end_col r <? col)) then Some r else find_loop best line col l.
Proof.
  induction l as [|q l IH]; intros best r; cbn [app find_loop].
  - destruct ((start_line r <=? line) && (line <=? end_line r)); [|reflexivity].
    destruct ((line =? start_line r) && (col <? start_col r)); [reflexivity|].
    now destruct ((line =? end_line r) && (end_col r <? col)).
  - rewrite !IH. destruct ((start_line q <=? line) && (line <=? end_line q)); [|reflexivity].
    destruct ((line =? start_line q) && (col <? start_col q)); [reflexivity|].
    now destruct ((line =? end_line q) && (end_col q <? col)).
Qed.
Lemma contains_dec r line col : 
  (start_line r <=? line) && (line <=? end_line r) && negb ((line =? start_line r) && (col <? start_col r))
     && negb ((line =? end_line r) && (end_col r <? col)) = true <-> contains r line col.
Proof.
  unfold contains. rewrite !Bool.andb_true_iff, !Bool.negb_true_iff, !Bool.andb_false_iff, !Z.leb_le, !Z.eqb_neq, !Z.ltb_ge. lia.
Qed.
Lemma step_spec idx o : (exists r, records o r /\ step idx o = idx ++ [r]) \/ (step idx o = idx /\ forall r, ~ records o r).
Proof.
  destruct o as [t n|t d n]; cbn [step records].
  - destruct (Z.leb_spec (k_line t) 0).
    + right. split; [reflexivity|]. intros r R. lia.
    + left. eexists. split; [|reflexivity]. unfold covers. cbn. repeat split; auto.
  - destruct (Z.leb_spec (k_line t) 0); [right; split; [reflexivity|]; intros r R; lia|]. cbn [orb].
    destruct (Z.leb_spec (k_line d) 0); [right; split; [reflexivity|]; intros r R; lia|].
    left. eexists. split; [|reflexivity]. unfold covers. cbn. repeat split; auto.
Qed.
Lemma records_fun o r r' : records o r -> records o r' -> r = r'.
Proof.
  destruct o; cbn [records]; destruct r, r'; unfold covers; cbn; intros; f_equal; try lia; intuition congruence.
Qed.
