From Verif Require Import Common Queue_Spec Stack_Model.

Section P.
  Context {A : Type}.
  Implicit Types (s : stack A) (l : list A).

  (** [l] newest first; the buffer holds [rev l] at the front. *)
  Definition srep s l : Prop :=
    slen s = length l /\
    match sdata s with
    | None => l = []
    | Some d => length d = scap s /\ 0 < scap s /\
                exists t, d = map Some (rev l) ++ t
    end.

  Lemma spush_ok s l x : srep s l -> exists s', spush s x = Ok s' /\ srep s' (x :: l).
  Proof.
    intros (L & D). unfold spush. destruct (sdata s) as [d|] eqn:E.
    - destruct D as (C & Z & t & ->).
      set (dc := if slen s =? scap s then _ else _).
      assert (exists t', dc = (map Some (rev l) ++ t', length l + length t') /\ 0 < length t') as (t' & -> & Ht').
      { subst dc. rewrite app_length, map_length, rev_length in C.
        destruct (Nat.eqb_spec (slen s) (scap s)).
        - assert (t = []) by (destruct t; cbn in *; auto; lia). subst t. rewrite app_nil_r. cbn.
          unfold brealloc. rewrite firstn_all2 by (rewrite map_length, rev_length; lia).
          eexists; split; [f_equal|].
          + rewrite repeat_length, map_length, rev_length. lia.
          + rewrite repeat_length, map_length, rev_length. lia.
        - exists t. cbn. split; [f_equal; lia|lia]. }
      destruct t' as [|o t']; [cbn in Ht'; lia|].
      unfold bset. rewrite app_length, map_length, rev_length. cbn [length].
      destruct (Nat.ltb_spec (slen s) (length l + S (length t'))); [|lia]. cbn [bind].
      eexists; split; [reflexivity|]. split; cbn; [lia|]. split; [|split].
      + rewrite length_upd, app_length, map_length, rev_length. reflexivity.
      + lia.
      + exists t'. rewrite upd_app_r by (rewrite map_length, rev_length; lia).
        rewrite map_length, rev_length. replace (slen s - length l) with 0 by lia. cbn.
        rewrite map_app. cbn. now rewrite <- app_assoc.
    - subst l. rewrite L. cbn. unfold bset. cbn. eexists; split; [reflexivity|].
      split; cbn; auto. repeat split; auto; try lia. eexists. reflexivity.
  Qed.

  Lemma spop_ok s x l : srep s (x :: l) -> exists s', spop s = Ok (s', Some x) /\ srep s' l.
  Proof.
    intros (L & D). unfold spop. cbn in L. rewrite L. cbn.
    destruct (sdata s) as [d|] eqn:E; [|discriminate].
    destruct D as (C & Z & t & ->). cbn. rewrite Nat.sub_0_r.
    unfold bget. rewrite map_app. cbn. rewrite <- app_assoc.
    rewrite nth_error_app2 by (rewrite map_length, rev_length; lia).
    rewrite map_length, rev_length, Nat.sub_diag. cbn.
    eexists; split; [reflexivity|]. split; cbn; auto. split; [|split; auto].
    - rewrite <- C. cbn. rewrite map_app, !app_length. cbn. lia.
    - eexists. reflexivity.
  Qed.

  Lemma s_step_ok s l op : srep s l ->
    exists s', s_step s op = Ok (s', snd (lifo_step l op)) /\ srep s' (fst (lifo_step l op)).
  Proof.
    intros R. assert (L : slen s = length l) by apply R. destruct op; cbn.
    - destruct (spush_ok s l x R) as (s' & -> & ?). cbn; eauto.
    - destruct l as [|x l].
      + unfold spop. rewrite L. change (0 <? length (@nil A)) with false. cbn. eauto.
      + destruct (spop_ok _ _ _ R) as (s' & -> & ?). cbn; eauto.
    - unfold slength. rewrite L. eauto.
    - unfold sis_empty. rewrite L. destruct l; cbn; eauto.
    - eexists; split; [reflexivity|]. destruct R as (_ & D). split; cbn; auto.
      destruct (sdata s); auto. destruct D as (? & ? & ? & ?). cbn. eauto 6.
    - eexists; split; [reflexivity|]. split; cbn; auto.
  Qed.

  Lemma s_run_ok ops : forall s l, srep s l ->
    exists s', s_run s ops = Ok (s', answers lifo_step l ops).
  Proof.
    induction ops; intros s l R; cbn.
    - eauto.
    - destruct (s_step_ok s l a R) as (s' & -> & R'). cbn.
      destruct (lifo_step l a) as [l' o]. cbn in *.
      destruct (IHops s' l' R') as (s'' & ->). cbn. eauto.
  Qed.

  Lemma s_run_rep ops : forall s l s' outs, srep s l -> s_run s ops = Ok (s', outs) -> exists l', srep s' l'.
  Proof.
    induction ops; intros s l s' outs R H; cbn in H.
    - injection H as <- <-. eauto.
    - destruct (s_step_ok s l a R) as (s1 & E & R'). rewrite E in H. cbn in H.
      destruct (s_run s1 ops) as [[s2 os]| | |] eqn:E2; cbn in H; try discriminate.
      injection H as -> <-. eauto.
  Qed.

  Lemma srep_new : srep snew [].
  Proof. split; reflexivity. Qed.

  Lemma sclone_ok s l : srep s l -> 0 < scap s -> exists c, sclone s = Ok c /\ srep c l.
  Proof.
    intros (L & D) H. unfold sclone. destruct (Nat.eqb_spec (slen s) 0).
    - cbn. eexists; split; [reflexivity|]. assert (l = []) by (destruct l; cbn in *; auto; lia). subst l.
      split; cbn; auto. unfold bnew. rewrite repeat_length. split; auto. split; auto. eexists. reflexivity.
    - destruct (sdata s) as [d|]; [|subst l; cbn in L; lia].
      destruct D as (C & Z & t & ->). rewrite app_length, map_length, rev_length in C.
      unfold bcopy. unfold bnew at 1. rewrite repeat_length, app_length, map_length, rev_length.
      destruct ((0 + slen s <=? length l + length t) && (0 + slen s <=? scap s)) eqn:B; [|lia].
      cbn [bind]. eexists; split; [reflexivity|]. split; cbn [slen sdata scap]; auto.
      cbn [firstn skipn app]. split; [|split; auto].
      + rewrite app_length, firstn_length, skipn_length, app_length, map_length, rev_length.
        unfold bnew. rewrite repeat_length. lia.
      + eexists. rewrite firstn_app, map_length, rev_length, L, Nat.sub_diag, firstn_O, app_nil_r.
        rewrite firstn_all2 by (rewrite map_length, rev_length; lia). reflexivity.
  Qed.
End P.
