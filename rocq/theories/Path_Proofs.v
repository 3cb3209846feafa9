From Verif Require Import Common Vec_Model Vec_Proofs String_Model String_Spec String_Proofs Path_Model Path_Spec.

Lemma is_sep_spec c : reflect (sep c) (is_sep c).
Proof.
  apply iff_reflect. unfold is_sep, sep. change (ch "/") with 47%N.
  destruct (N.eqb_spec c 47), (N.eqb_spec c 92); cbn; intuition congruence.
Qed.

Lemma sget_data v b i c : shold v b -> nth_error b i = Some c -> bget (data v) i = Ok c.
Proof.
  intros [(tl & E & _) _] Hi. rewrite E. apply bget_map_eq. rewrite nth_error_app1; auto.
  apply nth_error_Some. congruence.
Qed.

Lemma back_while_ok v b p : shold v b -> forall e, e <= length b ->
  exists e', back_while v p e = Ok e' /\ e' <= e /\
    Forall (fun c => p c = true) (firstn (e - e') (skipn e' b)) /\
    (e' = 0 \/ exists d c, firstn e' b = d ++ [c] /\ p c = false).
Proof.
  intros H. induction e; intros L; cbn [back_while].
  - exists 0. splits; auto. constructor.
  - destruct (nth_error_lt b e) as [c Ec]; [lia|]. rewrite (sget_data _ _ _ _ H Ec). cbn [bind].
    pose proof (firstn_S_nth b e c Ec) as F. rewrite Nat.add_1_r in F.
    destruct (p c) eqn:Ep.
    + destruct (IHe ltac:(lia)) as (e' & -> & Le & Fa & D). exists e'. splits; auto.
      assert (X : firstn (S e - e') (skipn e' b) = firstn (e - e') (skipn e' b) ++ [c]).
      { replace (S e - e') with ((e - e') + 1) by lia. apply firstn_S_nth.
        rewrite nth_error_skipn. now replace (e' + (e - e')) with e by lia. }
      rewrite X. apply Forall_app. split; auto.
    + exists (S e). splits; auto. { rewrite Nat.sub_diag. constructor. }
      right. eauto.
Qed.

(** Splitting at the positions found. *)
Lemma cut (b : bytes) e' e : e' <= e -> e <= length b ->
  firstn e b = firstn e' b ++ firstn (e - e') (skipn e' b).
Proof.
  intros H1 H2. rewrite <- (firstn_skipn e' (firstn e b)). rewrite firstn_firstn.
  replace (Nat.min e' e) with e' by lia. f_equal. now rewrite firstn_skipn_comm, Nat.add_sub_assoc, Nat.add_comm, Nat.add_sub by lia.
Qed.

Lemma Forall_seps b : Forall (fun c => is_sep c = true) b -> seps b.
Proof. apply Forall_impl. intros c. now destruct (is_sep_spec c). Qed.
Lemma Forall_no_sep b : Forall (fun c => negb (is_sep c) = true) b -> no_sep b.
Proof. apply Forall_impl. intros c. now destruct (is_sep_spec c). Qed.

(** The decomposition is unique. *)
Lemma seps_no_sep_nil b : seps b -> no_sep b -> b = [].
Proof. intros H1 H2. destruct b; auto. inversion H1; inversion H2; subst; easy. Qed.

Lemma tail_unique a b s t : seps s -> seps t -> open a -> open b -> a ++ s = b ++ t -> a = b /\ s = t.
Proof.
  intros Hs Ht Ha Hb. revert t Ht. induction s as [|c s IH] using rev_ind; intros t Ht E.
  - rewrite app_nil_r in E. destruct t as [|d t _] using rev_ind; [now rewrite app_nil_r in E|].
    exfalso. subst a. apply Forall_app in Ht as [_ Ht]. inversion Ht; subst.
    destruct Ha as [Z|(x & y & Z & N)].
    + destruct b, t; discriminate.
    + rewrite app_assoc in Z. apply app_inj_tail in Z as [_ ->]. easy.
  - apply Forall_app in Hs as [Hs Hc]. inversion Hc; subst.
    destruct t as [|d t _] using rev_ind.
    + rewrite app_nil_r in E. exfalso. subst b. destruct Hb as [Z|(x & y & Z & N)].
      * destruct a, s; discriminate.
      * rewrite app_assoc in Z. apply app_inj_tail in Z as [_ ->]. easy.
    + rewrite !app_assoc in E. apply app_inj_tail in E as [E ->].
      apply Forall_app in Ht as [Ht _]. destruct (IH Hs t Ht E) as [-> ->]. auto.
Qed.

Lemma name_unique a b n m : no_sep n -> no_sep m -> closed a -> closed b -> a ++ n = b ++ m -> a = b /\ n = m.
Proof.
  intros Hs Ht Ha Hb. revert m Ht. induction n as [|c s IH] using rev_ind; intros t Ht E.
  - rewrite app_nil_r in E. destruct t as [|d t _] using rev_ind; [now rewrite app_nil_r in E|].
    exfalso. subst a. apply Forall_app in Ht as [_ Ht]. inversion Ht; subst.
    destruct Ha as [Z|(x & y & Z & N)].
    + destruct b, t; discriminate.
    + rewrite app_assoc in Z. apply app_inj_tail in Z as [_ ->]. easy.
  - apply Forall_app in Hs as [Hs Hc]. inversion Hc; subst.
    destruct t as [|d t _] using rev_ind.
    + rewrite app_nil_r in E. exfalso. subst b. destruct Hb as [Z|(x & y & Z & N)].
      * destruct a, s; discriminate.
      * rewrite app_assoc in Z. apply app_inj_tail in Z as [_ ->]. easy.
    + rewrite !app_assoc in E. apply app_inj_tail in E as [E ->].
      apply Forall_app in Ht as [Ht _]. destruct (IH Hs t Ht E) as [-> ->]. auto.
Qed.

Lemma no_sep_open d n : n <> [] -> no_sep n -> open (d ++ n).
Proof.
  intros H1 H2. right. destruct n as [|c n _] using rev_ind; [easy|].
  apply Forall_app in H2 as [_ H2]. inversion H2; subst. exists (d ++ n), c. now rewrite app_assoc.
Qed.

Lemma last_component_unique b d n t d' n' t' :
  last_component b d n t -> last_component b d' n' t' -> d = d' /\ n = n' /\ t = t'.
Proof.
  intros (E & C & N & NS & T) (E' & C' & N' & NS' & T'). rewrite E in E'. rewrite !app_assoc in E'.
  apply tail_unique in E' as [E1 ->]; auto using no_sep_open.
  apply name_unique in E1 as [-> ->]; auto.
Qed.

Lemma seps_or_open b : exists a t, b = a ++ t /\ seps t /\ open a.
Proof.
  induction b as [|c b (a & t & -> & T & O)] using rev_ind.
  - exists [], []. splits; auto. constructor. now left.
  - destruct (is_sep_spec c).
    + exists a, (t ++ [c]). splits; auto. now rewrite app_assoc. apply Forall_app; auto.
    + exists ((a ++ t) ++ [c]), []. splits. now rewrite app_nil_r. constructor. right. eauto.
Qed.

Section Path.
  Variables (v : str) (b : bytes).
  Hypothesis H : shold v b.
  Hypothesis Hb : short b.

  (** the first two scans *)
  Lemma scan : exists e s, back_while v is_sep (length b) = Ok e /\
    back_while v (fun c => negb (is_sep c)) e = Ok s /\ s <= e <= length b /\
    seps (skipn e b) /\ no_sep (firstn (e - s) (skipn s b)) /\
    open (firstn e b) /\ closed (firstn s b) /\ (e > 0 -> s < e).
  Proof.
    destruct (back_while_ok v b is_sep H (length b)) as (e & E1 & L1 & F1 & D1); [lia|].
    destruct (back_while_ok v b (fun c => negb (is_sep c)) H e) as (s & E2 & L2 & F2 & D2); [lia|].
    exists e, s. splits; auto.
    - apply Forall_seps. rewrite firstn_all2 in F1; auto. rewrite skipn_length. lia.
    - now apply Forall_no_sep.
    - destruct D1 as [->|(d & c & E & P)]; [now left|]. right. exists d, c. split; auto.
      now destruct (is_sep_spec c).
    - destruct D2 as [->|(d & c & E & P)]; [now left|]. right. exists d, c. split; auto.
      now destruct (is_sep_spec c).
    - intros Le. destruct (Nat.eq_dec s e) as [->|]; [|lia]. exfalso.
      destruct D1 as [->|(d & c & E & P)]; [lia|]. destruct D2 as [->|(d' & c' & E' & P')]; [lia|].
      rewrite E in E'. apply app_inj_tail in E' as [_ ->]. now rewrite P in P'.
  Qed.

  Lemma file_name_none : seps b -> path_file_name v = Ok None.
  Proof.
    intros S. unfold path_file_name. rewrite (slength_ok _ _ H).
    destruct (Nat.eqb_spec (length b) 0); auto.
    destruct scan as (e & s & -> & _ & L & Sk & _ & O & _). cbn [bind].
    assert (X : firstn e b ++ skipn e b = [] ++ b) by apply firstn_skipn.
    apply tail_unique in X as [X _]; auto; [|now left].
    destruct e; auto. destruct b; cbn in *; [lia|discriminate].
  Qed.

  Lemma file_name_some d n t : last_component b d n t ->
    exists r, path_file_name v = Ok (Some r) /\ shold r n.
  Proof.
    intros LC. unfold path_file_name. rewrite (slength_ok _ _ H).
    destruct (Nat.eqb_spec (length b) 0) as [Z|_].
    { destruct b; [|discriminate]. destruct LC as (E & _ & Hn & _). destruct d, n; try discriminate. easy. }
    destruct scan as (e & s & -> & E2 & L & Sk & Ns & O & C & Lt). cbn [bind].
    destruct (Nat.eqb_spec e 0) as [->|Ne].
    { exfalso. destruct LC as (E & _ & Hn & NS & _). cbn in Sk. rewrite E in Sk.
      apply Forall_app in Sk as [_ Sk]. apply Forall_app in Sk as [Sk _].
      apply Hn. now apply seps_no_sep_nil. }
    assert (LC' : last_component b (firstn s b) (firstn (e - s) (skipn s b)) (skipn e b)).
    { unfold last_component. splits; auto.
      - rewrite app_assoc, <- cut by lia. symmetry. apply firstn_skipn.
      - intros Z. apply (f_equal (@length N)) in Z. rewrite firstn_length, skipn_length in Z. cbn in Z. lia. }
    destruct (last_component_unique _ _ _ _ _ _ _ LC LC') as (_ & -> & _).
    rewrite E2. cbn [bind].
    destruct (substr_nat v b s (e - s) H Hb) as (r & -> & R); [lia|]. cbn [bind]. eauto.
  Qed.

  (** [parent]: the directory part without its trailing separators *)
  Lemma parent_none_seps : seps b -> path_parent v = Ok None.
  Proof.
    intros S. unfold path_parent. rewrite (slength_ok _ _ H).
    destruct (Nat.eqb_spec (length b) 0); auto.
    destruct scan as (e & s & -> & E2 & L & Sk & _ & O & _). cbn [bind]. rewrite E2. cbn [bind].
    assert (X : firstn e b ++ skipn e b = [] ++ b) by apply firstn_skipn.
    apply tail_unique in X as [X _]; auto; [|now left].
    assert (e = 0) by (destruct e; auto; destruct b; cbn in *; [lia|discriminate]).
    assert (s = 0) by lia. subst. reflexivity.
  Qed.

  Lemma parent_some d n t : last_component b d n t ->
    exists r, path_parent v = Ok r /\
      ((d = [] /\ r = None) \/
       (d <> [] /\ seps d /\ exists p, r = Some p /\ shold p (bs "/")) \/
       (exists q s p, d = q ++ s /\ q <> [] /\ open q /\ seps s /\ r = Some p /\ shold p q)).
  Proof.
    intros LC. unfold path_parent. rewrite (slength_ok _ _ H).
    destruct (Nat.eqb_spec (length b) 0) as [Z|_].
    { destruct b; [|discriminate]. destruct LC as (E & _ & Hn & _). destruct d, n; try discriminate. easy. }
    destruct scan as (e & s & -> & E2 & L & Sk & Ns & O & C & Lt). cbn [bind].
    rewrite E2. cbn [bind].
    destruct (Nat.eq_dec e 0) as [->|Ne].
    { exfalso. destruct LC as (E & _ & Hn & NS & _). cbn in Sk. rewrite E in Sk.
      apply Forall_app in Sk as [_ Sk]. apply Forall_app in Sk as [Sk _].
      apply Hn. now apply seps_no_sep_nil. }
    assert (LC' : last_component b (firstn s b) (firstn (e - s) (skipn s b)) (skipn e b)).
    { unfold last_component. splits; auto.
      - rewrite app_assoc, <- cut by lia. symmetry. apply firstn_skipn.
      - intros Z. apply (f_equal (@length N)) in Z. rewrite firstn_length, skipn_length in Z. cbn in Z. lia. }
    destruct (last_component_unique _ _ _ _ _ _ _ LC LC') as (-> & _ & _).
    destruct (Nat.eqb_spec s 0) as [->|Ns'].
    { eexists. split; eauto. }
    destruct (back_while_ok v b is_sep H s) as (k & -> & Lk & Fk & Dk); [lia|]. cbn [bind].
    assert (firstn s b <> []) by (destruct s, b; cbn in *; congruence || lia).
    destruct (Nat.eqb_spec k 0) as [->|Nk].
    - destruct (snew_ok (bs "/")) as (p & -> & Hp). cbn [bind]. eexists; split; eauto.
      right; left. splits; eauto. apply Forall_seps. now rewrite Nat.sub_0_r in Fk.
    - destruct (substr_nat v b 0 k H Hb) as (r & E & R); [lia|]. cbn [N.of_nat] in E. rewrite E. cbn [bind].
      eexists; split; eauto. right; right. exists (firstn k b), (firstn (s - k) (skipn k b)), r.
      splits; auto.
      + apply cut; lia.
      + destruct k, b; cbn in *; congruence || lia.
      + destruct Dk as [->|(x & c & E' & P)]; [now left|]. right. exists x, c. split; auto.
        now destruct (is_sep_spec c).
      + now apply Forall_seps.
  Qed.

  Lemma ext_loop_ok : forall i, i <= length b ->
    (exists j, ext_loop v i = Ok (Some j) /\ 0 < j <= i /\ nth_error b (j - 1) = Some (ch ".") /\
       Forall (fun c => c <> ch "." /\ ~ sep c) (firstn (i - j) (skipn j b))) \/
    (ext_loop v i = Ok None /\ exists d n, firstn i b = d ++ n /\ closed d /\
       Forall (fun c => c <> ch "." /\ ~ sep c) n).
  Proof.
    induction i; intros L; cbn [ext_loop].
    - right. split; auto. exists [], []. splits; auto. now left.
    - destruct (nth_error_lt b i) as [c Ec]; [lia|]. rewrite (sget_data _ _ _ _ H Ec). cbn [bind].
      pose proof (firstn_S_nth b i c Ec) as F. rewrite Nat.add_1_r in F.
      destruct (N.eqb_spec c (ch ".")) as [->|Nd].
      { left. exists (S i). splits; try lia; auto. now replace (S i - 1) with i by lia.
        rewrite Nat.sub_diag. constructor. }
      destruct (is_sep_spec c) as [Sc|Sc].
      { right. split; auto. exists (firstn (S i) b), []. rewrite app_nil_r. splits; auto.
        right. eauto. }
      destruct (IHi ltac:(lia)) as [(j & -> & Lj & Ej & Fj)|(-> & d & n & E & Cd & Fn)].
      + left. exists j. splits; try lia; auto.
        assert (X : firstn (S i - j) (skipn j b) = firstn (i - j) (skipn j b) ++ [c]).
        { replace (S i - j) with ((i - j) + 1) by lia. apply firstn_S_nth.
          rewrite nth_error_skipn. now replace (j + (i - j)) with i by lia. }
        rewrite X. apply Forall_app. split; auto.
      + right. split; auto. exists d, (n ++ [c]). rewrite F, E, app_assoc. splits; auto.
        apply Forall_app. split; auto.
  Qed.

  Lemma extension_ok :
    (exists pre e r, path_extension v = Ok (Some r) /\ shold r e /\ b = pre ++ ch "." :: e /\
       Forall (fun c => c <> ch "." /\ ~ sep c) e) \/
    (path_extension v = Ok None /\ exists d n, b = d ++ n /\ closed d /\
       Forall (fun c => c <> ch "." /\ ~ sep c) n).
  Proof.
    unfold path_extension. rewrite (slength_ok _ _ H).
    destruct (ext_loop_ok (length b) (le_n _)) as [(j & -> & Lj & Ej & Fj)|(-> & d & n & E & Cd & Fn)]; cbn [bind].
    - left. destruct (substr_nat v b j (length b - j) H Hb) as (r & -> & R); [lia|]. cbn [bind].
      rewrite firstn_all2 in R, Fj by (rewrite skipn_length; lia).
      exists (firstn (j - 1) b), (skipn j b), r. splits; auto.
      rewrite <- (firstn_skipn (j - 1) b) at 1. f_equal.
      erewrite skipn_cons by eauto. now replace (j - 1 + 1) with j by lia.
    - right. rewrite firstn_all in E. split; eauto.
  Qed.
End Path.

Lemma join_ok v b o : shold v b ->
  exists r, path_join v o = Ok r /\
    ((closed b -> shold r (b ++ cstr o)) /\ (~ closed b -> shold r (b ++ bs "/" ++ cstr o))).
Proof.
  intros H. unfold path_join. rewrite (cread_ok _ _ H). cbn [bind].
  destruct (snew_ok b) as (n & -> & Hn). rewrite cstr_id in Hn by apply H. cbn [bind].
  rewrite (slength_ok _ _ H). destruct (snew_ok o) as (w & Ew & Hw).
  destruct (Nat.ltb_spec 0 (length b)).
  - destruct (nth_error_lt b (length b - 1)) as [c Ec]; [lia|]. rewrite (sget _ _ _ _ H Ec). cbn [bind].
    pose proof (firstn_S_nth b _ c Ec) as F. replace (length b - 1 + 1) with (length b) in F by lia.
    rewrite firstn_all in F.
    destruct (is_sep_spec c) as [Sc|Sc]; cbn [negb].
    + cbn [bind]. rewrite Ew. cbn [bind]. destruct (sappend_ok _ _ _ _ Hn Hw) as (r & -> & R).
      exists r. splits; auto. intros NC. destruct NC. right. eauto.
    + destruct (snew_ok (bs "/")) as (sp & -> & Hs). cbn [bind].
      destruct (sappend_ok _ _ _ _ Hn Hs) as (n' & -> & Hn'). cbn [bind]. rewrite Ew. cbn [bind].
      destruct (sappend_ok _ _ _ _ Hn' Hw) as (r & -> & R).
      exists r. splits; auto.
      * intros [->|(x & y & E & Y)]; [cbn in *; lia|]. rewrite F in E. apply app_inj_tail in E as [_ ->]. easy.
      * intros _. now rewrite app_assoc.
  - cbn [bind]. rewrite Ew. cbn [bind]. destruct (sappend_ok _ _ _ _ Hn Hw) as (r & -> & R).
    exists r. splits; auto. intros NC. destruct NC. left. destruct b; cbn in *; auto; lia.
Qed.
