From Verif Require Import Common Vec_Model Vec_Spec Vec_Sys.

Section P.
  Context {A : Type}.
  Variable rep_eq : A -> A -> bool.
  Implicit Types (v : vec A) (l : list A).

  Definition vrep v l : Prop :=
    exists tl, data v = map Some l ++ tl /\ len v = length l /\ cap v = length (data v).

  Lemma bget_map l (tl : buf A) i :
    i < length l -> exists x, nth_error l i = Some x /\ bget (map Some l ++ tl) i = Ok x.
  Proof.
    intros H. destruct (nth_error_lt l i H) as [x E]. exists x; split; auto.
    unfold bget. rewrite nth_error_app1 by now rewrite map_length.
    rewrite nth_error_map, E. reflexivity.
  Qed.

  Lemma bget_map_eq l (tl : buf A) i x :
    nth_error l i = Some x -> bget (map Some l ++ tl) i = Ok x.
  Proof.
    intros E. assert (i < length l) by (apply nth_error_Some; congruence).
    destruct (bget_map l tl i H) as (y & E' & ->). congruence.
  Qed.

  Lemma vrep_new : vrep vnew [].
  Proof. exists []; cbn; auto. Qed.

  Lemma vrep_with_capacity n : vrep (vwith_capacity n) [].
  Proof.
    unfold vwith_capacity. destruct (Nat.eqb_spec n 0).
    - exists []; cbn; auto.
    - exists (bnew n); cbn. unfold bnew. rewrite repeat_length. auto.
  Qed.

  Lemma brealloc_map l (tl : buf A) n :
    length l <= n -> exists tl', brealloc (map Some l ++ tl) n = map Some l ++ tl'.
  Proof.
    intros H. unfold brealloc. rewrite firstn_app, map_length.
    rewrite firstn_all2 by (rewrite map_length; lia).
    rewrite <- app_assoc. eauto.
  Qed.

  Lemma vrep_grow v l : vrep v l -> vrep (vgrow v) l /\ len v < cap (vgrow v).
  Proof.
    intros (tl & E & L & C). unfold vgrow. cbn [cap].
    set (c := if cap v =? 0 then 8 else cap v * 2).
    assert (Hc : length l < c).
    { subst c. rewrite C, E, app_length, map_length.
      destruct (Nat.eqb_spec (length l + length tl) 0); lia. }
    rewrite E. destruct (brealloc_map l tl c) as [tl' E']; [lia|].
    split; [|lia]. exists tl'. cbn. rewrite E'. repeat split; auto.
    rewrite <- E'. now rewrite length_brealloc.
  Qed.

  Lemma vrep_room v l :
    vrep v l ->
    let v' := if cap v <=? len v then vgrow v else v in
    vrep v' l /\ len v' < cap v'.
  Proof.
    intros H. cbn. destruct (Nat.leb_spec (cap v) (len v)).
    - destruct (vrep_grow _ _ H) as [H1 H2]. split; auto.
    - split; auto.
  Qed.

  Lemma vpush_ok v l x : vrep v l -> exists v', vpush v x = Ok v' /\ vrep v' (l ++ [x]).
  Proof.
    intros H. unfold vpush.
    destruct (vrep_room v l H) as [(tl & E & L & C) R].
    set (v1 := if cap v <=? len v then vgrow v else v) in *.
    unfold bset. replace (len v1 <? length (data v1)) with true by (symmetry; apply Nat.ltb_lt; lia).
    cbn. eexists; split; [reflexivity|].
    assert (exists y tl', tl = y :: tl') as (y & tl' & ->).
    { destruct tl; eauto. rewrite C, E, app_nil_r, map_length in R. lia. }
    exists tl'. cbn. rewrite E, L.
    replace (length l) with (length (map (@Some A) l)) at 1 by apply map_length.
    rewrite upd_middle, map_app, app_length. cbn.
    rewrite <- app_assoc. cbn. repeat split; try lia.
    rewrite C, E, length_upd. reflexivity.
  Qed.

  Lemma vinsert_ok v l k x : vrep v l -> k <= length l ->
    exists v', vinsert v k x = Ok v' /\ vrep v' (firstn k l ++ x :: skipn k l).
  Proof.
    intros H Hk. unfold vinsert.
    assert (L0 : len v = length l) by (destruct H as (? & ? & ? & ?); auto).
    destruct (Nat.ltb_spec (len v) k); [lia|].
    destruct (vrep_room v l H) as [(tl & E & L & C) R].
    set (v1 := if cap v <=? len v then vgrow v else v) in *.
    assert (exists y tl', tl = y :: tl') as (y & tl' & ->).
    { destruct tl; eauto. rewrite C, E, app_nil_r, map_length in R. lia. }
    assert (LD : length (data v1) = length l + S (length tl')).
    { rewrite E, app_length, map_length. reflexivity. }
    assert (HD : exists z, (if k <? len v1 then bcopy (data v1) k (data v1) (k + 1) (len v1 - k)
               else Ok (data v1)) = Ok (map Some (firstn k l) ++ z :: map Some (skipn k l) ++ tl')).
    { destruct (Nat.ltb_spec k (len v1)).
      - unfold bcopy.
        destruct ((k + (len v1 - k) <=? length (data v1)) && (k + 1 + (len v1 - k) <=? length (data v1))) eqn:B; [|lia].
        destruct (nth_error_lt l k) as [z Hz]; [lia|]. exists (Some z). f_equal.
        rewrite E, L.
        replace (k + 1) with (S k) by lia.
        assert (F1 : firstn (S k) (map Some l ++ y :: tl') = map Some (firstn k l) ++ [Some z]).
        { rewrite firstn_app, map_length. replace (S k - length l) with 0 by lia.
          rewrite firstn_O, app_nil_r, firstn_map.
          clear -Hz. revert k Hz. induction l; intros k Hz; destruct k; cbn in *; try discriminate.
          - injection Hz as ->. reflexivity.
          - f_equal. now apply IHl. }
        replace (S k + (length l - k)) with (length l + 1) by lia.
        rewrite F1, <- app_assoc. f_equal. cbn [app]. f_equal.
        rewrite skipn_app, map_length. replace (k - length l) with 0 by lia. cbn [skipn].
        rewrite skipn_map.
        rewrite firstn_app, map_length, skipn_length, Nat.sub_diag, firstn_O, app_nil_r.
        rewrite firstn_all2 by (rewrite map_length, skipn_length; lia).
        f_equal.
        rewrite skipn_app, skipn_all2 by (rewrite map_length; lia). cbn [app].
        rewrite map_length. replace (length l + 1 - length l) with 1 by lia. reflexivity.
      - exists y. assert (k = length l) by lia. subst k. f_equal.
        rewrite firstn_all, skipn_all. exact E. }
    destruct HD as [z HD]. rewrite HD. cbn [bind].
    unfold bset.
    set (d := map Some (firstn k l) ++ z :: map Some (skipn k l) ++ tl').
    assert (Lk : length (map (@Some A) (firstn k l)) = k).
    { rewrite map_length, firstn_length. lia. }
    assert (Ld : length d = length (data v1)).
    { subst d. rewrite LD, !app_length. cbn [length]. rewrite app_length, !map_length, firstn_length, skipn_length. lia. }
    destruct (Nat.ltb_spec k (length d)); [|lia].
    cbn [bind]. eexists; split; [reflexivity|].
    exists tl'. cbn [data len cap].
    rewrite length_upd. subst d. rewrite (upd_middle' _ _ _ _ _ Lk).
    repeat split.
    - rewrite map_app. cbn. now rewrite <- app_assoc.
    - rewrite app_length. cbn. rewrite firstn_length, skipn_length. lia.
    - rewrite C. now rewrite <- Ld.
  Qed.

  Lemma vpop_core v l x :
    vrep v (l ++ [x]) ->
    bget (data v) (len v - 1) = Ok x /\ vrep (mkvec (data v) (len v - 1) (cap v)) l /\ len v <> 0.
  Proof.
    intros (tl & E & L & C). rewrite app_length in L. cbn in L.
    split; [|split; [|lia]].
    - rewrite E. apply bget_map_eq. rewrite L, nth_error_app2 by lia.
      replace (length l + 1 - 1 - length l) with 0 by lia. reflexivity.
    - exists (Some x :: tl). cbn. rewrite E, map_app, <- app_assoc. cbn.
      repeat split; [lia|]. rewrite C, E, map_app, <- app_assoc. reflexivity.
  Qed.

  Lemma vremove_ok v l k x : vrep v l -> nth_error l k = Some x ->
    exists v', vremove v k = Ok (v', x) /\ vrep v' (firstn k l ++ skipn (S k) l).
  Proof.
    intros (tl & E & L & C) Hx.
    assert (Hk : k < length l) by (apply nth_error_Some; congruence).
    unfold vremove. destruct (Nat.leb_spec (len v) k); [lia|].
    rewrite E, (bget_map_eq _ _ _ _ Hx). cbn [bind].
    assert (LD : length (data v) = length l + length tl).
    { rewrite E, app_length, map_length. reflexivity. }
    assert (HD : exists tl', (if k <? len v - 1
                 then bcopy (map Some l ++ tl) (k + 1) (map Some l ++ tl) k (len v - k - 1)
                 else Ok (map Some l ++ tl))
              = Ok (map Some (firstn k l ++ skipn (S k) l) ++ tl')
              /\ length (map Some (firstn k l ++ skipn (S k) l) ++ tl') = length (data v)).
    { destruct (Nat.ltb_spec k (len v - 1)).
      - unfold bcopy. rewrite <- E.
        destruct ((k + 1 + (len v - k - 1) <=? length (data v)) && (k + (len v - k - 1) <=? length (data v))) eqn:B; [|lia].
        exists (skipn (length l - 1) (map Some l ++ tl)). split.
        + f_equal. rewrite E, map_app, <- app_assoc.
          rewrite firstn_app, map_length. replace (k - length l) with 0 by lia.
          rewrite firstn_O, app_nil_r, firstn_map. f_equal.
          replace (k + 1) with (S k) by lia.
          rewrite skipn_app, map_length. replace (S k - length l) with 0 by lia.
          rewrite skipn_map, firstn_app, map_length, skipn_length.
          replace (len v - k - 1 - (length l - S k)) with 0 by lia.
          rewrite firstn_O, app_nil_r.
          rewrite firstn_all2 by (rewrite map_length, skipn_length; lia). f_equal.
          f_equal. lia.
        + rewrite app_length, map_length, app_length, firstn_length, !skipn_length, app_length, map_length. lia.
      - assert (Hk1 : k = length l - 1) by lia. exists (Some x :: tl).
        assert (El : l = firstn k l ++ [x]).
        { clear -Hx Hk1. rewrite <- (firstn_skipn k l) at 1. f_equal.
          assert (length (skipn k l) = 1).
          { assert (k < length l) by (apply nth_error_Some; congruence). rewrite skipn_length. lia. }
          pose proof (nth_error_skipn l k 0) as N. rewrite Nat.add_0_r, Hx in N.
          destruct (skipn k l) as [|z [|]]; cbn in *; try discriminate. congruence. }
        rewrite (skipn_all2 l) by lia. rewrite app_nil_r. split.
        + f_equal. rewrite El at 1. rewrite map_app, <- app_assoc. reflexivity.
        + rewrite LD. rewrite app_length, map_length. cbn.
          assert (length (firstn k l) = k) by (rewrite firstn_length; lia). lia. }
    destruct HD as (tl' & HD & HL). unfold buf in *. rewrite HD. cbn [bind].
    eexists; split; [reflexivity|]. exists tl'. cbn [data len cap]. split; auto. split.
    - rewrite app_length, firstn_length, skipn_length. lia.
    - rewrite HL. auto.
  Qed.

  Lemma vfit_loop_ok' f c n : 0 < c -> n < c + f -> 0 < f -> exists c', vfit_loop f c n = Ok c' /\ n <= c'.
  Proof.
    revert c. induction f; intros c Hc H Hf; cbn [vfit_loop]; [lia|].
    destruct (Nat.ltb_spec c n).
    - apply IHf; lia.
    - eauto.
  Qed.

  Lemma vgrow_to_fit_ok v l n : vrep v l -> length l <= n ->
    exists v', vgrow_to_fit v n = Ok v' /\ vrep v' l /\ n <= cap v'.
  Proof.
    intros (tl & E & L & C) Hn. unfold vgrow_to_fit.
    destruct (Nat.leb_spec n (cap v)).
    - exists v. split; auto. split; auto. exists tl; auto.
    - destruct (vfit_loop_ok' (S n) (if cap v =? 0 then 8 else cap v) n) as (c & -> & Hc).
      + destruct (Nat.eqb_spec (cap v) 0); lia.
      + lia.
      + lia.
      + cbn. eexists; split; [reflexivity|]. cbn. split; auto.
        rewrite E. destruct (brealloc_map l tl c) as [tl' E']; [lia|].
        exists tl'. cbn. rewrite E'. repeat split; auto. rewrite <- E'.
        now rewrite length_brealloc.
  Qed.

  Lemma vappend_ok v l o m : vrep v l -> vrep o m ->
    exists v', vappend v o = Ok v' /\ vrep v' (l ++ m).
  Proof.
    intros Hv (tlo & Eo & Lo & Co). unfold vappend.
    destruct (vgrow_to_fit_ok v l (len v + len o) Hv) as (v1 & -> & (tl & E & L & C) & Hc).
    { destruct Hv as (? & ? & ? & ?). lia. }
    cbn [bind]. unfold bcopy.
    assert (LO : length (data o) = length m + length tlo) by (rewrite Eo, app_length, map_length; auto).
    assert (LV : length (data v1) = length l + length tl) by (rewrite E, app_length, map_length; auto).
    assert (L0 : len v = length l) by (destruct Hv as (? & ? & ? & ?); auto).
    destruct ((0 + len o <=? length (data o)) && (len v1 + len o <=? length (data v1))) eqn:B; [|lia].
    cbn [bind]. eexists; split; [reflexivity|].
    exists (skipn (length m) tl). cbn [data len cap skipn].
    assert (F1 : firstn (len v1) (data v1) = map Some l).
    { rewrite E, firstn_app, map_length, L, Nat.sub_diag, firstn_O, app_nil_r.
      apply firstn_all2. now rewrite map_length. }
    assert (F2 : firstn (len o) (data o) = map Some m).
    { rewrite Eo, firstn_app, map_length, Lo, Nat.sub_diag, firstn_O, app_nil_r.
      apply firstn_all2. now rewrite map_length. }
    assert (F3 : skipn (len v1 + len o) (data v1) = skipn (length m) tl).
    { rewrite E, skipn_app, map_length. rewrite skipn_all2 by (rewrite map_length; lia).
      cbn. f_equal. lia. }
    cbn [skipn]. rewrite F1, F2, F3. rewrite map_app, <- app_assoc. repeat split.
    - rewrite app_length. lia.
    - rewrite !app_length, !map_length, skipn_length. lia.
  Qed.

  Lemma vget_ok v l k x : vrep v l -> nth_error l k = Some x -> vget v k = Ok x.
  Proof.
    intros (tl & E & L & C) Hx. unfold vget.
    assert (k < length l) by (apply nth_error_Some; congruence).
    destruct (Nat.leb_spec (len v) k); [lia|]. rewrite E. now apply bget_map_eq.
  Qed.

  Lemma vset_ok v l k x : vrep v l -> k < length l ->
    exists v', vset v k x = Ok v' /\ vrep v' (upd l k x).
  Proof.
    intros (tl & E & L & C) Hk. unfold vset.
    destruct (Nat.leb_spec (len v) k); [lia|]. unfold bset.
    assert (length (data v) = length l + length tl) by (rewrite E, app_length, map_length; auto).
    destruct (Nat.ltb_spec k (length (data v))); [|lia]. cbn.
    eexists; split; [reflexivity|]. exists tl. cbn. rewrite length_upd. repeat split; auto.
    - rewrite E, upd_app_l by (rewrite map_length; lia). now rewrite upd_map.
    - now rewrite length_upd.
  Qed.

  Lemma vcontains_loop_ok l (tl : buf A) x : forall k i,
    i + k = length l ->
    vcontains_loop rep_eq (map Some l ++ tl) x i k = Ok (existsb (fun y => rep_eq y x) (skipn i l)).
  Proof.
    induction k; intros i H; cbn.
    - rewrite skipn_all2 by lia. reflexivity.
    - destruct (bget_map l tl i) as (y & Ey & ->); [lia|]. cbn [bind].
      assert (S : skipn i l = y :: skipn (i + 1) l).
      { clear -Ey. revert i Ey. induction l; intros i Ey; destruct i; cbn in *; try discriminate.
        - congruence.
        - now apply IHl. }
      rewrite S. cbn. destruct (rep_eq y x); cbn; auto. apply IHk. lia.
  Qed.

  Lemma skipn_cons l i y : nth_error l i = Some y -> skipn i l = y :: skipn (i + 1) l.
  Proof.
    revert i. induction l; intros i Ey; destruct i; cbn in *; try discriminate.
    - congruence.
    - now apply IHl.
  Qed.

  Lemma vcontains_ok v l x : vrep v l ->
    vcontains rep_eq v x = Ok (existsb (fun y => rep_eq y x) l).
  Proof.
    intros (tl & E & L & C). unfold vcontains. rewrite E, L.
    now rewrite vcontains_loop_ok.
  Qed.

  Lemma veq_loop_ok l m (tl tlm : buf A) : length l = length m -> forall k i,
    i + k = length l ->
    veq_loop rep_eq (map Some l ++ tl) (map Some m ++ tlm) i k
    = Ok (eq_lists rep_eq (skipn i l) (skipn i m)).
  Proof.
    intros HL. induction k; intros i H; cbn.
    - rewrite !skipn_all2 by lia. reflexivity.
    - destruct (bget_map l tl i) as (x & Ex & ->); [lia|].
      destruct (bget_map m tlm i) as (y & Ey & ->); [lia|]. cbn [bind].
      rewrite (skipn_cons _ _ _ Ex), (skipn_cons _ _ _ Ey). cbn.
      destruct (rep_eq x y); cbn; auto. apply IHk. lia.
  Qed.

  Lemma eq_lists_length l m : length l <> length m -> eq_lists rep_eq l m = false.
  Proof.
    revert m; induction l; destruct m; cbn; intros; auto; try lia.
    rewrite IHl by lia. apply andb_false_r.
  Qed.

  Lemma veq_ok v l o m : vrep v l -> vrep o m -> veq rep_eq v o = Ok (eq_lists rep_eq l m).
  Proof.
    intros (tl & E & L & C) (tlo & Eo & Lo & Co). unfold veq. rewrite L, Lo.
    destruct (Nat.eqb_spec (length l) (length m)); cbn [negb].
    - rewrite E, Eo. now rewrite veq_loop_ok.
    - now rewrite eq_lists_length.
  Qed.

  Lemma vclone_loop_ok l (tl : buf A) : forall k i,
    i + k = length l ->
    vclone_loop (map Some l ++ tl) (map Some (firstn i l) ++ bnew k) i k = Ok (map Some l).
  Proof.
    induction k; intros i H; cbn [vclone_loop].
    - rewrite firstn_all2 by lia. cbn. now rewrite app_nil_r.
    - destruct (bget_map l tl i) as (x & Ex & ->); [lia|]. cbn [bind].
      assert (Li : length (map (@Some A) (firstn i l)) = i) by (rewrite map_length, firstn_length; lia).
      unfold bset. rewrite app_length, Li. unfold bnew. rewrite repeat_length.
      destruct (Nat.ltb_spec i (i + S k)); [|lia]. cbn [bind repeat].
      rewrite (upd_middle' _ _ _ _ _ Li).
      replace (map Some (firstn i l) ++ Some x :: repeat None k)
        with (map Some (firstn (i + 1) l) ++ bnew k).
      + apply IHk. lia.
      + rewrite <- (firstn_skipn i l) at 1. rewrite (skipn_cons _ _ _ Ex).
        rewrite firstn_app, firstn_length. replace (i + 1 - Nat.min i (length l)) with 1 by lia.
        rewrite firstn_all2 by (rewrite firstn_length; lia).
        rewrite map_app, <- app_assoc. reflexivity.
  Qed.

  Lemma vclone_ok v l : vrep v l -> exists c, vclone v = Ok c /\ vrep c l.
  Proof.
    intros (tl & E & L & C). unfold vclone.
    destruct (Nat.eqb_spec (len v) 0).
    - destruct l; [|cbn in *; lia]. exists vnew. split; auto. apply vrep_new.
    - rewrite E, L. pose proof (vclone_loop_ok l tl (length l) 0 eq_refl) as K. cbn [firstn map app] in K.
      rewrite K. cbn. eexists; split; [reflexivity|]. exists []. cbn.
      rewrite app_nil_r, map_length. auto.
  Qed.

  Lemma viter_collect_ok l (tl : buf A) : forall k i f,
    i + k = length l -> k < f ->
    viter_collect f (mkviter (map Some l ++ tl) (length l) i) = Ok (skipn i l).
  Proof.
    induction k; intros i f H Hf; (destruct f; [lia|]); cbn; unfold viter_next; cbn.
    - destruct (Nat.ltb_spec i (length l)); [lia|]. cbn. now rewrite skipn_all2 by lia.
    - destruct (Nat.ltb_spec i (length l)); [|lia].
      destruct (bget_map l tl i) as (x & Ex & ->); [lia|]. cbn.
      rewrite IHk by lia. cbn. now rewrite (skipn_cons _ _ _ Ex).
  Qed.

  Lemma viterate_ok v l : vrep v l -> viter_collect (S (len v)) (viterator v) = Ok l.
  Proof.
    intros (tl & E & L & C). unfold viterator. rewrite E, L.
    now rewrite viter_collect_ok with (k := length l) by lia.
  Qed.

  Lemma viter_ref_collect_ok l (tl : buf A) : forall k i f,
    i + k = length l -> k < f ->
    viter_ref_collect f (mkviter (map Some l ++ tl) (length l) i) = Ok (skipn i l).
  Proof.
    induction k; intros i f H Hf; (destruct f; [lia|]); cbn; unfold viter_ref_next; cbn.
    - destruct (Nat.ltb_spec i (length l)); [lia|]. cbn. now rewrite skipn_all2 by lia.
    - destruct (Nat.ltb_spec i (length l)); [|lia].
      rewrite app_length, map_length.
      destruct (Nat.ltb_spec i (length l + length tl)); [|lia]. cbn.
      destruct (bget_map l tl i) as (x & Ex & ->); [lia|]. cbn.
      rewrite IHk by lia. cbn. now rewrite (skipn_cons _ _ _ Ex).
  Qed.

  (** Systems of vectors *)
  Definition srep (st : list (vec A)) (ls : list (list A)) : Prop := Forall2 vrep st ls.

  Lemma srep_nth st ls i : srep st ls ->
    match nth_error st i, nth_error ls i with
    | Some v, Some l => vrep v l
    | None, None => True
    | _, _ => False
    end.
  Proof.
    intros H. revert i. induction H; intros i; destruct i; cbn; auto. apply IHForall2.
  Qed.

  Lemma srep_upd st ls i v l : srep st ls -> vrep v l -> srep (upd st i v) (upd ls i l).
  Proof.
    intros H R. revert i. induction H; intros i; destruct i; cbn; constructor; auto.
    apply IHForall2.
  Qed.

  Lemma srep_app st ls v l : srep st ls -> vrep v l -> srep (st ++ [v]) (ls ++ [l]).
  Proof. intros. apply Forall2_app; auto. Qed.

  Definition agrees {B} (r : res (list (vec A) * B)) (s : option (list (list A) * B)) : Prop :=
    match s with
    | None => r = Panic
    | Some (ls, o) => exists st, r = Ok (st, o) /\ srep st ls
    end.

  Lemma mon_on st ls i f g :
    srep st ls ->
    (forall v l, vrep v l ->
       match g l with
       | None => f v = Panic
       | Some (l', o) => exists v', f v = Ok (v', o) /\ vrep v' l'
       end) ->
    agrees (mon st i f) (on ls i g).
  Proof.
    intros H F. unfold mon, on. pose proof (srep_nth _ _ i H) as N.
    destruct (nth_error st i) as [v|], (nth_error ls i) as [l|]; try easy.
    - specialize (F v l N). destruct (g l) as [[l' o]|]; cbn.
      + destruct F as (v' & -> & R). cbn. eexists; split; eauto. now apply srep_upd.
      + now rewrite F.
    - cbn. eauto.
  Qed.

  Lemma rev_inv l : match rev l with [] => l = [] | x :: r => l = rev r ++ [x] end.
  Proof.
    destruct (rev l) eqn:E.
    - rewrite <- (rev_involutive l), E. reflexivity.
    - rewrite <- (rev_involutive l), E. reflexivity.
  Qed.

  Lemma sys_step_ok st ls op : srep st ls ->
    agrees (sys_step rep_eq st op) (spec_step rep_eq ls op).
  Proof.
    intros H.
    assert (LEN : forall v l, vrep v l -> len v = length l) by (intros v l (? & ? & ? & ?); auto).
    destruct op; cbn [sys_step spec_step]; try (apply mon_on; [exact H|]; intros v l R).
    - cbn. eexists; split; [reflexivity|]. apply srep_app; auto using vrep_new.
    - cbn. eexists; split; [reflexivity|]. apply srep_app; auto using vrep_with_capacity.
    - destruct (vpush_ok v l x R) as (v' & -> & R'). cbn; eauto.
    - destruct (Nat.leb_spec k (length l)).
      + destruct (vinsert_ok v l k x R) as (v' & -> & R'); auto. cbn; eauto.
      + unfold vinsert. rewrite (LEN _ _ R). destruct (Nat.ltb_spec (length l) k); [reflexivity|lia].
    - pose proof (rev_inv l) as I. destruct (rev l); subst.
      + unfold vpop. rewrite (LEN _ _ R). reflexivity.
      + destruct (vpop_core _ _ _ R) as (G & R' & Z). unfold vpop.
        destruct (Nat.eqb_spec (len v) 0); [lia|]. rewrite G. cbn. eauto.
    - pose proof (rev_inv l) as I. destruct (rev l); subst.
      + unfold vpop_opt. rewrite (LEN _ _ R). cbn. eauto.
      + destruct (vpop_core _ _ _ R) as (G & R' & Z). unfold vpop_opt.
        destruct (Nat.eqb_spec (len v) 0); [lia|]. rewrite G. cbn. eauto.
    - destruct (nth_error l k) eqn:E.
      + destruct (vremove_ok _ _ _ _ R E) as (v' & -> & R'). cbn; eauto.
      + apply nth_error_None in E. unfold vremove. rewrite (LEN _ _ R).
        destruct (Nat.leb_spec (length l) k); [reflexivity|lia].
    - destruct (i =? j) eqn:IJ; [cbn; eauto|].
      pose proof (srep_nth _ _ j H) as NJ. pose proof (srep_nth _ _ i H) as NI.
      destruct (nth_error st j) as [o|], (nth_error ls j) as [m|]; try easy; [|cbn; eauto].
      destruct (nth_error st i) as [v|], (nth_error ls i) as [l|]; try easy; [|cbn; eauto].
      destruct (vappend_ok v l o m NI NJ) as (v' & -> & R'). cbn.
      eexists; split; [reflexivity|]. apply srep_upd; auto using vrep_new. now apply srep_upd.
    - destruct (nth_error l k) eqn:E; cbn.
      + rewrite (vget_ok _ _ _ _ R E). cbn; eauto.
      + apply nth_error_None in E. unfold vget. rewrite (LEN _ _ R).
        destruct (Nat.leb_spec (length l) k); [reflexivity|lia].
    - unfold vfirst. rewrite (LEN _ _ R). destruct l; cbn [nth_error option_map length Nat.eqb].
      + reflexivity.
      + destruct R as (tl & E & L & C). rewrite E. cbn. eexists; split; [reflexivity|].
        exists tl; auto.
    - pose proof (rev_inv l) as I. unfold vlast. destruct (rev l); subst.
      + rewrite (LEN _ _ R). reflexivity.
      + destruct (vpop_core _ _ _ R) as (G & R' & Z).
        destruct (Nat.eqb_spec (len v) 0); [lia|]. rewrite G. cbn. eauto.
    - destruct (Nat.ltb_spec k (length l)).
      + destruct (vset_ok v l k x R) as (v' & -> & R'); auto. cbn; eauto.
      + unfold vset. rewrite (LEN _ _ R). destruct (Nat.leb_spec (length l) k); [reflexivity|lia].
    - unfold vlength. rewrite (LEN _ _ R). eauto.
    - unfold vis_empty. rewrite (LEN _ _ R). destruct l; cbn; eauto.
    - rewrite (vcontains_ok _ _ _ R). cbn; eauto.
    - destruct (i =? j) eqn:IJ; [cbn; eauto|].
      pose proof (srep_nth _ _ j H) as NJ. pose proof (srep_nth _ _ i H) as NI.
      destruct (nth_error st j) as [o|], (nth_error ls j) as [m|]; try easy; [|cbn; eauto].
      destruct (nth_error st i) as [v|], (nth_error ls i) as [l|]; try easy; [|cbn; eauto].
      rewrite (veq_ok _ _ _ _ NI NJ). cbn. eexists; split; [reflexivity|].
      apply srep_upd; auto using vrep_new.
    - eexists; split; [reflexivity|]. destruct R as (tl & E & L & C). exists (data v); auto.
    - eexists; split; [reflexivity|]. apply vrep_new.
    - pose proof (srep_nth _ _ i H) as N.
      destruct (nth_error st i) as [v|], (nth_error ls i) as [l|]; try easy; [|cbn; eauto].
      destruct (vclone_ok _ _ N) as (c & -> & R). cbn. eexists; split; [reflexivity|].
      now apply srep_app.
    - rewrite (viterate_ok _ _ R). cbn; eauto.
  Qed.

  Lemma sys_run_ok ops : forall st ls, srep st ls ->
    agrees (sys_run rep_eq st ops) (spec_run rep_eq ls ops).
  Proof.
    induction ops; intros st ls H; cbn.
    - eauto.
    - pose proof (sys_step_ok st ls a H) as S.
      destruct (spec_step rep_eq ls a) as [[ls' o]|]; cbn in S.
      + destruct S as (st' & -> & H'). cbn. specialize (IHops _ _ H').
        destruct (spec_run rep_eq ls' ops) as [[ls'' os]|]; cbn in *.
        * destruct IHops as (st'' & -> & ?). cbn. eauto.
        * now rewrite IHops.
      + now rewrite S.
  Qed.

  Lemma vrep_contents v l : vrep v l -> firstn (len v) (data v) = map Some l.
  Proof.
    intros (tl & E & L & C). rewrite E, L, firstn_app, map_length, Nat.sub_diag, firstn_O, app_nil_r.
    apply firstn_all2. now rewrite map_length.
  Qed.

  (** reverse *)
  Lemma vreverse_loop_ok : forall k f (p m s : list A) (tl : buf A),
    length m <= 2 * k + 1 -> k < f ->
    (N.of_nat (length p + length m) < 2 ^ 64)%N ->
    vreverse_loop f (map Some (p ++ m ++ s) ++ tl) (N.of_nat (length p))
                  (N.of_nat (length p + length m) - 1)%N
    = Ok (map Some (p ++ rev m ++ s) ++ tl).
  Proof.
    induction k; intros f p m s tl Hm Hf Hb; (destruct f; [lia|]); cbn [vreverse_loop].
    - destruct m as [|x [|y m]]; [| |cbn in Hm; lia].
      + cbn [length] in *; destruct (N.ltb_spec (N.of_nat (length p)) (N.of_nat (length p + 0) - 1)); [lia|]. reflexivity.
      + cbn [length] in *.
        destruct (N.ltb_spec (N.of_nat (length p)) (N.of_nat (length p + 1) - 1)); [lia|]. reflexivity.
    - destruct m as [|x m].
      { cbn [length] in *; destruct (N.ltb_spec (N.of_nat (length p)) (N.of_nat (length p + 0) - 1)); [lia|]. reflexivity. }
      destruct (exists_last (l := x :: m)) as (m' & y & E); [discriminate|].
      destruct m' as [|x' m'].
      { cbn in E. injection E as <- ->. cbn [length].
        destruct (N.ltb_spec (N.of_nat (length p)) (N.of_nat (length p + 1) - 1)); [lia|]. reflexivity. }
      cbn in E. injection E as <- ->. cbn [length] in *. rewrite app_length in *. cbn [length] in *.
      destruct (N.ltb_spec (N.of_nat (length p)) (N.of_nat (length p + S (length m' + 1)) - 1)); [|lia].
      rewrite Nat2N.id.
      replace (N.to_nat (N.of_nat (length p + S (length m' + 1)) - 1)) with (length p + S (length m')) by lia.
      rewrite (bget_map_eq _ _ (length p) x).
      2:{ rewrite nth_error_app2, Nat.sub_diag by lia. reflexivity. }
      cbn [bind].
      assert (LD : length (map (@Some A) (p ++ (x :: m' ++ [y]) ++ s) ++ tl)
                   = length p + S (length m' + 1) + length s + length tl).
      { rewrite app_length, map_length, !app_length. cbn. rewrite !app_length. cbn. lia. }
      rewrite LD.
      destruct (N.ltb_spec (N.of_nat (length p + S (length m' + 1)) - 1)
               (N.of_nat (length p + S (length m' + 1) + length s + length tl))); [|lia].
      rewrite (bget_map_eq _ _ (length p + S (length m')) y).
      2:{ rewrite nth_error_app2 by lia.
          replace (length p + S (length m') - length p) with (S (length m')) by lia. cbn.
          rewrite <- app_assoc, nth_error_app2, Nat.sub_diag by lia. reflexivity. }
      cbn [bind]. unfold bset at 1. rewrite LD.
      destruct (Nat.ltb_spec (length p) (length p + S (length m' + 1) + length s + length tl)); [|lia].
      cbn [bind]. unfold bset. rewrite length_upd, LD.
      destruct (Nat.ltb_spec (length p + S (length m')) (length p + S (length m' + 1) + length s + length tl)); [|lia].
      cbn [bind].
      assert (U : upd (upd (map Some (p ++ (x :: m' ++ [y]) ++ s) ++ tl) (length p) (Some y))
                  (length p + S (length m')) (Some x)
                  = map Some ((p ++ [y]) ++ m' ++ x :: s) ++ tl).
      { rewrite upd_app_l by (rewrite map_length, !app_length; cbn; rewrite !app_length; cbn; lia).
        rewrite upd_map. cbn [app]. rewrite upd_middle.
        rewrite upd_app_l by (rewrite map_length, !app_length; cbn; rewrite !app_length; cbn; lia).
        rewrite upd_map. f_equal. f_equal.
        rewrite upd_app_r by lia. replace (length p + S (length m') - length p) with (S (length m')) by lia.
        cbn. rewrite <- !app_assoc. cbn. rewrite upd_middle. reflexivity. }
      rewrite U.
      replace (N.of_nat (length p) + 1)%N with (N.of_nat (length (p ++ [y]))) by (rewrite app_length; cbn; lia).
      replace ((N.of_nat (length p + S (length m' + 1)) - 1 + (2 ^ 64 - 1)) mod 2 ^ 64)%N
        with (N.of_nat (length (p ++ [y]) + length m') - 1)%N.
      2:{ rewrite app_length. cbn [length].
          replace (N.of_nat (length p + S (length m' + 1)) - 1 + (2 ^ 64 - 1))%N
            with (N.of_nat (length p + 1 + length m') - 1 + 1 * 2 ^ 64)%N by lia.
          rewrite N.mod_add by lia. symmetry. apply N.mod_small. lia. }
      rewrite IHk; [| lia | lia | rewrite app_length; cbn; lia].
      f_equal. f_equal. f_equal. cbn. rewrite rev_app_distr. cbn. rewrite <- !app_assoc. reflexivity.
  Qed.

  Lemma vreverse_ok v l : vrep v l -> l <> [] -> (N.of_nat (length l) < 2 ^ 64)%N ->
    exists v', vreverse v = Ok v' /\ vrep v' (rev l).
  Proof.
    intros (tl & E & L & C) Hl Hb. unfold vreverse. rewrite E, L.
    assert (0 < length l) by (destruct l; cbn; [congruence|lia]).
    replace ((N.of_nat (length l) + (2 ^ 64 - 1)) mod 2 ^ 64)%N with (N.of_nat (0 + length l) - 1)%N.
    2:{ replace (N.of_nat (length l) + (2 ^ 64 - 1))%N with (N.of_nat (length l) - 1 + 1 * 2 ^ 64)%N by lia.
        rewrite N.mod_add by lia. symmetry. rewrite N.mod_small; cbn; lia. }
    pose proof (vreverse_loop_ok (length l) (S (length l)) [] l [] tl) as K.
    cbn [app length N.of_nat] in K. rewrite !app_nil_r in K.
    change 0%N with (N.of_nat 0). cbn [N.of_nat] in *. rewrite K; [|lia|lia|cbn; lia].
    cbn [bind]. eexists; split; [reflexivity|]. exists tl. cbn. rewrite rev_length.
    repeat split; auto. rewrite C, E, !app_length, !map_length, rev_length. reflexivity.
  Qed.
End P.
