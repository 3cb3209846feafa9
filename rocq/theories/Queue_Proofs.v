From Verif Require Import Common Queue_Model Queue_Spec Queue_Sys.

Section P.
  Context {A : Type}.
  Implicit Types (q : queue A) (l : list A).

  Definition qrep q l : Prop :=
    qcap q = length (qdata q) /\ qcount q = length l /\
    (qcap q = 0 -> qhead q = 0 /\ qtail q = 0 /\ l = []) /\
    (0 < qcap q -> qhead q < qcap q /\ length l <= qcap q /\
       qtail q = (qhead q + length l) mod qcap q /\
       forall i x, nth_error l i = Some x ->
                   nth_error (qdata q) ((qhead q + i) mod qcap q) = Some (Some x)).

  Lemma mod_shift h i c : h < c -> i < c ->
    (h + i) mod c = if h + i <? c then h + i else h + i - c.
  Proof.
    intros. destruct (Nat.ltb_spec (h + i) c).
    - now apply Nat.mod_small.
    - replace (h + i) with ((h + i - c) + 1 * c) at 1 by lia.
      rewrite Nat.mod_add by lia. apply Nat.mod_small. lia.
  Qed.

  Lemma mod_shift_le h i c : h < c -> i <= c ->
    (h + i) mod c = if h + i <? c then h + i else h + i - c.
  Proof.
    intros. destruct (Nat.ltb_spec (h + i) c).
    - now apply Nat.mod_small.
    - replace (h + i) with ((h + i - c) + 1 * c) at 1 by lia.
      rewrite Nat.mod_add by lia. apply Nat.mod_small. lia.
  Qed.

  Lemma firstn_bnew n m : firstn n (@bnew A m) = bnew (min n m).
  Proof. revert m; induction n; destruct m; cbn; auto. f_equal. apply IHn. Qed.
  Lemma skipn_bnew n m : skipn n (@bnew A m) = bnew (m - n).
  Proof. revert m; induction n; destruct m; cbn; auto. apply IHn. Qed.

  Lemma qlin_ok q l n : qrep q l -> length l <= n ->
    qlinearise q (bnew n) = Ok (map Some l ++ bnew (n - length l)).
  Proof.
    intros (C & L & Z & P) Hn. unfold qlinearise.
    destruct (Nat.ltb_spec 0 (qcount q)) as [H0|H0].
    2:{ destruct l; [|cbn in L; lia]. cbn. now rewrite Nat.sub_0_r. }
    assert (Hc : 0 < qcap q).
    { destruct (Nat.eq_dec (qcap q) 0) as [E|]; [|lia]. destruct (Z E) as (_ & _ & ->). cbn in L. lia. }
    destruct (P Hc) as (Hh & Hl & T & N). clear P Z.
    rewrite mod_shift_le in T by lia.
    destruct (Nat.ltb_spec (qhead q + length l) (qcap q)).
    - (* no wrap *)
      destruct (Nat.ltb_spec (qhead q) (qtail q)); [|lia].
      unfold bcopy. unfold bnew at 1. rewrite repeat_length.
      destruct ((qhead q + qcount q <=? length (qdata q)) && (0 + qcount q <=? n)) eqn:B; [|lia].
      f_equal. cbn [firstn app]. rewrite skipn_bnew. cbn [Nat.add]. rewrite L. f_equal.
      apply list_ext. intros i. rewrite nth_error_firstn, nth_error_skipn, nth_error_map.
      destruct (Nat.ltb_spec i (length l)).
      + destruct (nth_error_lt l i) as [x Hx]; auto. rewrite Hx. cbn.
        rewrite <- (N _ _ Hx). f_equal. symmetry. apply Nat.mod_small. lia.
      + now rewrite nth_error_None_ge by lia.
    - (* wraps *)
      destruct (Nat.ltb_spec (qhead q) (qtail q)); [lia|].
      set (f := qcap q - qhead q).
      assert (Hf : f + qtail q = length l) by (subst f; lia).
      unfold bcopy at 1. unfold bnew at 1. rewrite repeat_length.
      destruct ((qhead q + f <=? length (qdata q)) && (0 + f <=? n)) eqn:B; [|lia]. cbn [bind].
      unfold bcopy. cbn [firstn app Nat.add]. rewrite skipn_bnew.
      assert (Lf : length (firstn f (skipn (qhead q) (qdata q))) = f).
      { rewrite firstn_length, skipn_length. lia. }
      rewrite app_length, Lf. unfold bnew at 1. rewrite repeat_length.
      destruct ((qtail q <=? length (qdata q)) && (f + qtail q <=? f + (n - f))) eqn:B2; [|lia].
      f_equal. rewrite firstn_app, Lf, Nat.sub_diag, firstn_O, app_nil_r.
      rewrite (firstn_all2 (n := f) (firstn f _)) by lia.
      rewrite skipn_app, Lf. rewrite (skipn_all2 (firstn f _)) by lia. cbn [app].
      rewrite skipn_bnew. replace (n - f - (f + qtail q - f)) with (n - length l) by lia.
      rewrite app_assoc. f_equal.
      apply list_ext. intros i. rewrite nth_error_app_if, Lf, nth_error_map.
      destruct (Nat.ltb_spec i f).
      + rewrite nth_error_firstn, nth_error_skipn.
        destruct (Nat.ltb_spec i f); [|lia].
        destruct (nth_error_lt l i) as [x Hx]; [lia|]. rewrite Hx. cbn.
        rewrite <- (N _ _ Hx). f_equal. symmetry. apply Nat.mod_small. lia.
      + cbn [skipn]. rewrite nth_error_firstn. destruct (Nat.ltb_spec (i - f) (qtail q)).
        * destruct (nth_error_lt l i) as [x Hx]; [lia|]. rewrite Hx. cbn.
          rewrite <- (N _ _ Hx). f_equal. rewrite mod_shift by lia.
          destruct (Nat.ltb_spec (qhead q + i) (qcap q)); lia.
        * now rewrite nth_error_None_ge by lia.
  Qed.

  Lemma qrep_linear l n : length l < n -> qrep (mkq (map Some l ++ bnew (n - length l)) n 0 (length l) (length l)) l.
  Proof.
    intros H. split; [|split; [|split]]; cbn; try lia.
    { rewrite app_length, map_length. unfold bnew. rewrite repeat_length. lia. }
    intros Hc. repeat split; try lia.
    - now rewrite Nat.mod_small.
    - intros i x Hx. assert (i < length l) by (apply nth_error_Some; congruence).
      rewrite Nat.mod_small by lia. rewrite nth_error_app1 by (rewrite map_length; lia).
      rewrite nth_error_map, Hx. reflexivity.
  Qed.

  Lemma qgrow_ok q l : qrep q l -> qcount q = qcap q ->
    exists q', qgrow q = Ok q' /\ qrep q' l /\ qcount q' < qcap q'.
  Proof.
    intros R H. assert (L : qcount q = length l) by apply R.
    unfold qgrow. set (n := if qcap q =? 0 then 8 else qcap q * 2).
    assert (length l < n) by (subst n; destruct (Nat.eqb_spec (qcap q) 0); lia).
    rewrite (qlin_ok q l n R) by lia. cbn. eexists; split; [reflexivity|].
    rewrite L. split; [now apply qrep_linear|cbn; lia].
  Qed.

  Lemma qpush_ok q l x : qrep q l -> exists q', qpush q x = Ok q' /\ qrep q' (l ++ [x]).
  Proof.
    intros R. unfold qpush.
    assert (exists q', (if qcount q =? qcap q then qgrow q else Ok q) = Ok q' /\
              qrep q' l /\ qcount q' < qcap q') as (q' & -> & R' & H').
    { destruct (Nat.eqb_spec (qcount q) (qcap q)).
      - now apply qgrow_ok.
      - exists q. split; [reflexivity|]. split; [exact R|]. destruct R as (C & L & Z & P).
        destruct (Nat.eq_dec (qcap q) 0) as [E|].
        + destruct (Z E) as (_ & _ & ->). cbn in L. lia.
        + destruct P; lia. }
    cbn [bind]. destruct R' as (C & L & Z & P).
    assert (Hc : 0 < qcap q') by lia. destruct (P Hc) as (Hh & Hl & T & N).
    unfold bset. assert (Ht : qtail q' < qcap q') by (rewrite T; apply Nat.mod_upper_bound; lia).
    destruct (Nat.ltb_spec (qtail q') (length (qdata q'))); [|lia]. cbn [bind].
    destruct (Nat.eqb_spec (qcap q') 0); [lia|].
    eexists; split; [reflexivity|]. split; [|split; [|split]]; cbn; try lia.
    { now rewrite length_upd. }
    { rewrite app_length. cbn. lia. }
    intros _. repeat split; try lia.
    - rewrite app_length. cbn. lia.
    - rewrite app_length. cbn [length]. rewrite T, Nat.add_mod_idemp_l by lia. f_equal. lia.
    - intros i y Hy. rewrite nth_error_upd.
      assert (i < length (l ++ [x])) by (apply nth_error_Some; congruence).
      rewrite app_length in H0. cbn in H0.
      rewrite nth_error_app_if in Hy.
      destruct (Nat.ltb_spec i (length l)).
      + replace (qtail q' =? (qhead q' + i) mod qcap q') with false; [now apply N|].
        symmetry. apply Nat.eqb_neq. rewrite T, !mod_shift_le by lia.
        destruct (Nat.ltb_spec (qhead q' + length l) (qcap q')), (Nat.ltb_spec (qhead q' + i) (qcap q')); lia.
      + assert (i = length l) by lia. subst i. rewrite Nat.sub_diag in Hy. cbn in Hy. injection Hy as ->.
        rewrite <- T, Nat.eqb_refl.
        destruct (Nat.ltb_spec (qtail q') (length (qdata q'))); [reflexivity|lia].
  Qed.

  Lemma qpop_ok q x l : qrep q (x :: l) -> exists q', qpop q = Ok (q', Some x) /\ qrep q' l.
  Proof.
    intros (C & L & Z & P). unfold qpop. cbn in L.
    destruct (Nat.eqb_spec (qcount q) 0); [lia|].
    assert (Hc : 0 < qcap q).
    { destruct (Nat.eq_dec (qcap q) 0) as [E|]; [|lia]. destruct (Z E) as (_ & _ & ?); discriminate. }
    destruct (P Hc) as (Hh & Hl & T & N). cbn in Hl.
    pose proof (N 0 x eq_refl) as N0. rewrite Nat.add_0_r, Nat.mod_small in N0 by lia.
    unfold bget. rewrite N0. cbn. destruct (Nat.eqb_spec (qcap q) 0); [lia|].
    eexists; split; [reflexivity|]. split; [|split; [|split]]; cbn; try lia; auto.
    intros _. repeat split; try (apply Nat.mod_upper_bound; lia); try lia.
    - rewrite T, Nat.add_mod_idemp_l by lia. f_equal. cbn. lia.
    - intros i y Hy. rewrite Nat.add_mod_idemp_l by lia.
      replace (qhead q + 1 + i) with (qhead q + S i) by lia. now apply N.
  Qed.

  Lemma qrep_nil_cap q n : qcap q = length (qdata q) -> n = qcap q ->
    qrep (mkq (qdata q) n 0 0 0) [].
  Proof.
    intros C ->. split; [|split; [|split]]; cbn; auto; try lia.
    intros Hc. repeat split; try lia.
    - now rewrite Nat.mod_small.
    - intros i x H. destruct i; discriminate.
  Qed.

  Lemma qrep_new : qrep qnew [].
  Proof. apply (qrep_nil_cap (mkq [] 0 0 0 0)); auto. Qed.

  Lemma q_step_ok q l op : qrep q l ->
    exists q', q_step q op = Ok (q', snd (fifo_step l op)) /\ qrep q' (fst (fifo_step l op)).
  Proof.
    intros R. assert (L : qcount q = length l) by apply R. destruct op; cbn.
    - destruct (qpush_ok q l x R) as (q' & -> & ?). cbn; eauto.
    - destruct l as [|x l].
      + unfold qpop. rewrite L. cbn. eauto.
      + destruct (qpop_ok _ _ _ R) as (q' & -> & ?). cbn; eauto.
    - unfold qlength. rewrite L. eauto.
    - unfold qis_empty. rewrite L. destruct l; cbn; eauto.
    - eexists; split; [reflexivity|]. apply qrep_nil_cap; auto. apply R.
    - eexists; split; [reflexivity|]. apply qrep_new.
  Qed.

  Lemma q_run_ok ops : forall q l, qrep q l ->
    exists q', q_run q ops = Ok (q', answers fifo_step l ops).
  Proof.
    induction ops; intros q l R; cbn.
    - eauto.
    - destruct (q_step_ok q l a R) as (q' & -> & R'). cbn.
      destruct (fifo_step l a) as [l' o]. cbn in *.
      destruct (IHops q' l' R') as (q'' & ->). cbn. eauto.
  Qed.

  Lemma q_run_rep ops : forall q l q' outs, qrep q l -> q_run q ops = Ok (q', outs) -> exists l', qrep q' l'.
  Proof.
    induction ops; intros q l q' outs R H; cbn in H.
    - injection H as <- <-. eauto.
    - destruct (q_step_ok q l a R) as (q1 & E & R'). rewrite E in H. cbn in H.
      destruct (q_run q1 ops) as [[q2 os]| | |] eqn:E2; cbn in H; try discriminate.
      injection H as -> <-. eauto.
  Qed.

  Lemma qclone_ok q l : qrep q l -> qcount q < qcap q \/ qcap q = 0 ->
    exists c, qclone q = Ok c /\ qrep c l.
  Proof.
    intros R H. assert (L : qcount q = length l) by apply R. unfold qclone.
    destruct H as [H|H].
    - rewrite (qlin_ok q l (qcap q) R) by lia. cbn. eexists; split; [reflexivity|].
      rewrite L. apply qrep_linear. lia.
    - destruct R as (C & _ & Z & _). destruct (Z H) as (_ & _ & ->).
      unfold qlinearise. rewrite L, H. cbn. eexists; split; [reflexivity|].
      apply (qrep_nil_cap (mkq [] 0 0 0 0)); auto.
  Qed.

  Lemma qclone_full_ub q l x : qrep q l -> qcount q = qcap q -> 0 < qcap q ->
    exists c, qclone q = Ok c /\ q_run c [QPop; QPush x] = UB.
  Proof.
    intros R H Hc. assert (L : qcount q = length l) by apply R. unfold qclone.
    rewrite (qlin_ok q l (qcap q) R) by lia. cbn [bind]. eexists; split; [reflexivity|].
    destruct l as [|y l]; [cbn in L; lia|]. cbn.
    unfold qpop. cbn. destruct (Nat.eqb_spec (qcount q) 0); [lia|]. cbn.
    destruct (Nat.eqb_spec (qcap q) 0); [lia|]. cbn.
    unfold qpush. cbn. destruct (Nat.eqb_spec (qcount q - 1) (qcap q)); [lia|]. cbn.
    unfold bset. cbn. rewrite app_length, map_length. unfold bnew. rewrite repeat_length.
    cbn in L.
    destruct (Nat.ltb_spec (qcount q) (S (length l + (qcap q - S (length l))))); [lia|]. reflexivity.
  Qed.
End P.
