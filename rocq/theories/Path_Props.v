(** C21: the path functions. *)
From Verif Require Import Common Vec_Model Vec_Proofs Vec_Props String_Model String_Spec String_Proofs String_Props
  Path_Model Path_Spec Path_Proofs.

Lemma cstr_no0 o : ~ In 0%N o -> cstr o = o.
Proof. intros H. apply cstr_id. apply Forall_forall. intros x Hx ->. easy. Qed.

(** join puts exactly one separator between the two texts when it is needed. *)
Theorem C21_join :
  forall v b o, text v b -> ~ In 0%N o ->
  exists r, path_join v o = Ok r /\
    (closed b -> text r (b ++ o)) /\ (~ closed b -> text r (b ++ bs "/" ++ o)).
Proof.
  intros v b o H Ho. apply text_shold in H. destruct (join_ok v b o H) as (r & E & R1 & R2).
  rewrite cstr_no0 in * by auto. exists r. splits; auto; intros; apply text_shold; auto.
Qed.
Print Assumptions C21_join.

(** Every path is nothing but separators, or has exactly one last component. *)
Theorem C21_components :
  forall b, (seps b \/ exists dir name tail, last_component b dir name tail) /\
    (forall dir name tail, last_component b dir name tail ->
       ~ seps b /\ forall d n t, last_component b d n t -> d = dir /\ n = name /\ t = tail).
Proof.
  intros b. split.
  - destruct (seps_or_open b) as (a & t & -> & T & [->|(d & c & -> & N)]); [now left|]. right.
    assert (G : exists dir name, d ++ [c] = dir ++ name /\ closed dir /\ name <> [] /\ no_sep name).
    { clear T t. revert c N. induction d as [|x d IH] using rev_ind; intros c N.
      - exists [], [c]. splits; auto; try easy. now left. repeat constructor; auto.
      - destruct (is_sep_spec x) as [S|S].
        + exists (d ++ [x]), [c]. splits; auto; try easy. right; eauto. repeat constructor; auto.
        + destruct (IH x S) as (dir & name & E & C & _ & Ns). exists dir, (name ++ [c]).
          rewrite E, app_assoc. splits; auto. now destruct name. apply Forall_app; repeat constructor; auto. }
    destruct G as (dir & name & -> & C & Ne & Ns). exists dir, name, t.
    unfold last_component. rewrite app_assoc. splits; auto.
  - intros dir name tail L. split.
    + intros S. destruct L as (-> & _ & Ne & Ns & _). apply Ne.
      apply Forall_app in S as [_ S]. apply Forall_app in S as [S _]. now apply seps_no_sep_nil.
    + intros d n t L'. destruct (last_component_unique _ _ _ _ _ _ _ L L') as (-> & -> & ->). auto.
Qed.
Print Assumptions C21_components.

(** file_name is the last component, if any. *)
Theorem C21_file_name :
  forall v b, text v b -> short b ->
  (seps b -> path_file_name v = Ok None) /\
  (forall dir name tail, last_component b dir name tail ->
     exists r, path_file_name v = Ok (Some r) /\ text r name).
Proof.
  intros v b H Hb. apply text_shold in H. split.
  - now apply file_name_none.
  - intros dir name tail L. destruct (file_name_some v b H Hb _ _ _ L) as (r & E & R).
    exists r. split; auto. now apply text_shold.
Qed.
Print Assumptions C21_file_name.

(** parent is what precedes the last component, without trailing separators; "/" if
    that is only separators; nothing if there is nothing before or no component. *)
Theorem C21_parent :
  forall v b, text v b -> short b ->
  (seps b -> path_parent v = Ok None) /\
  (forall dir name tail, last_component b dir name tail ->
     (dir = [] -> path_parent v = Ok None) /\
     (dir <> [] -> seps dir -> exists r, path_parent v = Ok (Some r) /\ text r (bs "/")) /\
     (forall p s, dir = p ++ s -> p <> [] -> open p -> seps s ->
        exists r, path_parent v = Ok (Some r) /\ text r p)).
Proof.
  intros v b H Hb. apply text_shold in H. split; [now apply parent_none_seps|].
  intros dir name tail L.
  destruct (parent_some v b H Hb _ _ _ L) as (r & E & [[-> ->]|[(N & S & p & -> & Hp)|(q & s & p & -> & N & O & S & -> & Hp)]]).
  - splits; try easy. intros p s Ep Np. destruct p; [easy|discriminate].
  - splits; try easy.
    + intros _ _. exists p. split; auto. now apply text_shold.
    + intros q s -> Nq O Sq. exfalso. apply Forall_app in S as [S _].
      destruct O as [->|(d & c & -> & Nc)]; [easy|]. apply Forall_app in S as [_ S]. inversion S; easy.
  - splits.
    + intros Z. destruct q; [easy|discriminate].
    + intros _ S'. exfalso. apply Forall_app in S' as [S' _].
      destruct O as [->|(d & c & -> & Nc)]; [easy|]. apply Forall_app in S' as [_ S']. inversion S'; easy.
    + intros q' s' E' N' O' S'. destruct (tail_unique _ _ _ _ S S' O O' E') as [<- _].
      exists p. split; auto. now apply text_shold.
Qed.
Print Assumptions C21_parent.

Lemma last_mark : forall (a l1 c' l2 : bytes) y z, Forall (fun w => w <> z) l1 -> Forall (fun w => w <> y) l2 ->
        (a ++ [y]) ++ l1 = (c' ++ [z]) ++ l2 -> y = z.
Proof.
intros a l1 c' l2 y z. revert l2. induction l1 as [|u l1 IH] using rev_ind; intros l2 A1 A2 E.
        - rewrite app_nil_r in E. destruct l2 as [|w l2 _] using rev_ind.
          + rewrite app_nil_r in E. now apply app_inj_tail in E as [_ ->].
          + rewrite app_assoc in E. apply app_inj_tail in E as [_ ->]. apply Forall_app in A2 as [_ A2]. inversion A2; easy.
        - apply Forall_app in A1 as [A1 Au]. inversion Au; subst.
          destruct l2 as [|w l2 _] using rev_ind.
          + rewrite app_nil_r, app_assoc in E. apply app_inj_tail in E as [_ ->]. easy.
          + rewrite !app_assoc in E. apply app_inj_tail in E as [E _]. apply Forall_app in A2 as [A2 _]. eauto.
Qed.

(** extension is what follows the last dot of the part after the last separator. *)
Theorem C21_extension :
  forall v b, text v b -> short b ->
  (forall pre e, b = pre ++ ch "." :: e -> no_sep e -> ~ In (ch ".") e ->
     exists r, path_extension v = Ok (Some r) /\ text r e) /\
  (forall dir n, b = dir ++ n -> closed dir -> no_sep n -> ~ In (ch ".") n ->
     path_extension v = Ok None).
Proof.
  intros v b H Hb. apply text_shold in H.
  assert (D : forall l, Forall (fun c => c <> ch "." /\ ~ sep c) l -> no_sep l /\ ~ In (ch ".") l).
  { intros l F. split. eapply Forall_impl; [|exact F]; cbn; tauto.
    intros I. rewrite Forall_forall in F. destruct (F _ I); easy. }
  assert (Ndot : ~ sep (ch ".")) by (unfold sep; change (ch ".") with 46%N; change (ch "/") with 47%N; lia).
  (* after the last dot *)
  assert (U : forall p e p' e', ~ In (ch ".") e -> ~ In (ch ".") e' -> p ++ ch "." :: e = p' ++ ch "." :: e' -> e = e').
  { clear. intros p e p' e'. revert e'. induction e as [|u e IH] using rev_ind; intros e' H1 H2 E.
    - destruct e' as [|w e' _] using rev_ind; auto. exfalso. apply H2.
      change (ch "." :: e' ++ [w]) with ((ch "." :: e') ++ [w]) in E. rewrite app_assoc in E.
      apply app_inj_tail in E as [_ <-]. apply in_or_app. right. now left.
    - destruct e' as [|w e' _] using rev_ind.
      + exfalso. apply H1. change (ch "." :: e ++ [u]) with ((ch "." :: e) ++ [u]) in E. rewrite app_assoc in E.
        apply app_inj_tail in E as [_ ->]. apply in_or_app. right. now left.
      + change (ch "." :: e ++ [u]) with ((ch "." :: e) ++ [u]) in E.
        change (ch "." :: e' ++ [w]) with ((ch "." :: e') ++ [w]) in E. rewrite !app_assoc in E.
        apply app_inj_tail in E as [E ->]. f_equal. apply IH; auto; intros I; [apply H1|apply H2]; apply in_or_app; auto. }
  destruct (extension_ok v b H Hb) as [(pre & e & r & E & R & Eb & F)|(E & d & n & Eb & C & F)];
    destruct (D _ F) as [F1 F2]; split.
  - intros pre' e' Eb' N1 N2. exists r. split; auto. apply text_shold.
    rewrite Eb in Eb'. now rewrite <- (U _ _ _ _ F2 N2 Eb').
  - intros dir n Eb' C N1 N2. exfalso.
    rewrite Eb in Eb'. change (ch "." :: e) with ([ch "."] ++ e) in Eb'. rewrite app_assoc in Eb'.
    (* the dot lies in dir, so dir ends in it or n contains a separator *)
    destruct C as [->|(x & c & -> & Sc)].
    + apply N2. cbn in Eb'. rewrite <- Eb', <- app_assoc. apply in_or_app. right. now left.
    + apply Ndot. rewrite (last_mark pre e x n (ch ".") c); auto.
      * eapply Forall_impl; [|exact F1]. cbn. intros w Nw ->. easy.
      * apply Forall_forall. intros w Iw ->. easy.
  - intros pre e Eb' N1 N2. exfalso. rewrite Eb' in Eb. change (ch "." :: e) with ([ch "."] ++ e) in Eb.
    rewrite app_assoc in Eb. destruct C as [->|(x & c & -> & Sc)].
    + apply F2. cbn in Eb. rewrite <- Eb, <- app_assoc. apply in_or_app. right. now left.
    + apply Ndot. rewrite (last_mark pre e x n (ch ".") c); auto.
      * eapply Forall_impl; [|exact N1]. cbn. intros w Nw ->. easy.
      * apply Forall_forall. intros w Iw ->. easy.
  - auto.
Qed.
Print Assumptions C21_extension.

(** The components of a joined path come back. *)
Theorem C21_recover :
  forall v b name, text v b -> ~ In 0%N name -> name <> [] -> no_sep name ->
  short (b ++ bs "/" ++ name) ->
  exists r f, path_join v name = Ok r /\
    path_file_name r = Ok (Some f) /\ text f name /\
    (b <> [] -> open b -> exists p, path_parent r = Ok (Some p) /\ text p b) /\
    (forall stem e, name = stem ++ ch "." :: e -> ~ In (ch ".") e ->
       exists x, path_extension r = Ok (Some x) /\ text x e).
Proof.
  intros v b name H N0 Ne Ns Hs. destruct (C21_join v b name H N0) as (r & E & J1 & J2).
  assert (Dec : {closed b} + {~ closed b}).
  { destruct (exists_last (l := 0%N :: b)) as (b0 & c & Eb); [easy|].
    destruct b as [|b1 b2]; [left; now left|]. destruct b0 as [|z b']; [discriminate|].
    injection Eb as _ Eb. rewrite Eb. clear - Eb. destruct (is_sep_spec c).
    - left. right. eauto.
    - right. intros [Z|(x & y & Z & S)]; [destruct b'; discriminate|]. apply app_inj_tail in Z as [_ ->]. easy. }
  set (dir := if Dec then b else b ++ bs "/").
  assert (R : text r (dir ++ name) /\ closed dir /\ short (dir ++ name)).
  { unfold dir. destruct Dec as [C|C].
    - splits; auto. unfold short in *. rewrite !app_length in *. cbn in *. lia.
    - rewrite <- app_assoc. splits; auto. right. exists b, 47%N. split; auto. now left. }
  destruct R as (R & C & Sh).
  assert (L : last_component (dir ++ name) dir name []).
  { unfold last_component. rewrite app_nil_r. splits; auto. constructor. }
  destruct (proj2 (C21_file_name r _ R Sh) _ _ _ L) as (f & Ef & Hf).
  exists r, f. splits; auto.
  - intros Nb O. destruct (proj2 (C21_parent r _ R Sh) _ _ _ L) as (_ & _ & P).
    apply (P b (bs "/")); auto.
    + unfold dir. destruct Dec as [C'|]; auto. exfalso.
      destruct O as [->|(d & c & -> & Nc)]; [easy|]. destruct C' as [Z|(x & y & Z & S)].
      * destruct d; discriminate.
      * apply app_inj_tail in Z as [_ ->]. easy.
    + repeat constructor.
  - intros stem e -> Nd. apply (proj1 (C21_extension r _ R Sh) (dir ++ stem)); auto.
    + now rewrite <- app_assoc.
    + unfold no_sep in *. apply Forall_app in Ns as [_ Ns]. now inversion Ns.
Qed.
Print Assumptions C21_recover.

Example C21_example :
  exists v r f p x, snew (bs "/usr/lo.cal") = Ok v /\ text v (bs "/usr/lo.cal") /\
  open (bs "/usr/lo.cal") /\ no_sep (bs "a.tar.gz") /\ short (bs "/usr/lo.cal" ++ bs "/" ++ bs "a.tar.gz") /\
  path_join v (bs "a.tar.gz") = Ok r /\ cread (data r) = Ok (bs "/usr/lo.cal/a.tar.gz") /\
  path_file_name r = Ok (Some f) /\ cread (data f) = Ok (bs "a.tar.gz") /\
  path_parent r = Ok (Some p) /\ cread (data p) = Ok (bs "/usr/lo.cal") /\
  path_extension r = Ok (Some x) /\ cread (data x) = Ok (bs "gz").
Proof.
  destruct (snew_ok (bs "/usr/lo.cal")) as (v & E & H). do 5 eexists. splits.
  - vm_compute. reflexivity.
  - apply text_shold. vm_compute in E. injection E as E. rewrite E. exact H.
  - right. exists (bs "/usr/lo.ca"), (ch "l"). split; auto. intros [X|X]; discriminate.
  - repeat constructor; intros [X|X]; discriminate.
  - vm_compute. reflexivity.
  - vm_compute. reflexivity.
  - reflexivity.
  - vm_compute. reflexivity.
  - reflexivity.
  - vm_compute. reflexivity.
  - reflexivity.
  - vm_compute. reflexivity.
  - reflexivity.
Qed.
