(** Proofs about sockets. *)
From Verif Require Import Common Net_Model Net_Spec.
From Coq Require Import Permutation.
Local Open Scope Z_scope.

Lemma NoDup_app_l {A} (a b : list A) : NoDup (a ++ b) -> NoDup a.
Proof.
  induction a; cbn; intros H; [constructor|]. inversion H; subst. constructor; auto.
  intros I. apply H2. apply in_or_app. auto.
Qed.
Lemma held_app a b : held (a ++ b) = held a ++ held b.
Proof. unfold held. now rewrite filter_app, map_app. Qed.

Lemma held_close l i s : nth_error l i = Some s -> 0 < handle s ->
  Permutation (held l) ((handle s - 1) :: held (upd l i {| knd := knd s; handle := 0 |})).
Proof.
  revert i. induction l as [|x l IH]; intros i E H; [destruct i; discriminate|].
  destruct i; cbn in E.
  - injection E as ->. cbn [upd]. unfold held. cbn [filter handle map].
    destruct (Z.ltb_spec 0 (handle s)); [|lia]. cbn [map]. change (0 <? 0) with false. apply Permutation_refl.
  - cbn [upd]. specialize (IH i E H). unfold held in *. cbn [filter].
    destruct (0 <? handle x); cbn [map]; auto.
    rewrite IH. apply perm_swap.
Qed.

Lemma held_remove l i s : nth_error l i = Some s -> handle s <= 0 -> held (firstn i l ++ skipn (S i) l) = held l.
Proof.
  revert i. induction l as [|x l IH]; intros i E H; [destruct i; discriminate|].
  destruct i; cbn in E.
  - injection E as ->. cbn [firstn skipn app]. unfold held. cbn [filter]. destruct (Z.ltb_spec 0 (handle s)); [lia|auto].
  - cbn [firstn app]. change (skipn (S (S i)) (x :: l)) with (skipn (S i) l). specialize (IH i E H).
    unfold held in *. cbn [filter]. destruct (0 <? handle x); cbn [map]; now rewrite IH.
Qed.

Lemma remove_perm x l l' : NoDup l -> Permutation l (x :: l') ->
  Permutation (sys_close x l) l' /\ NoDup (sys_close x l).
Proof.
  intros N P. unfold sys_close.
  assert (N' : NoDup (x :: l')) by (eapply Permutation_NoDup; eauto).
  inversion N' as [|? ? NI ND]; subst.
  assert (R : forall l, NoDup l -> NoDup (remove Z.eq_dec x l)).
  { clear. induction l as [|y l IH]; intros N; cbn; [constructor|]. inversion N; subst.
    destruct (Z.eq_dec x y); auto. constructor; auto. intros H. apply in_remove in H as [H _]. auto. }
  split; auto. apply NoDup_Permutation; auto. intros y. split.
  - intros H. apply in_remove in H as [H D]. apply (Permutation_in _ P) in H. destruct H; [congruence|auto].
  - intros H. apply in_in_remove; [intros ->; auto|]. apply (Permutation_in _ (Permutation_sym P)). now right.
Qed.

Lemma make_tidy k fd r p : tidy p -> fd < 0 \/ ~ In fd (opened p) -> tidy (make k fd r p).
Proof.
  intros [N P] H. unfold make. destruct (Z.ltb_spec fd 0); [split; auto|]. destruct H as [H|H]; [lia|].
  assert (C : tidy (with_opened (with_opened p (fd :: opened p)) (sys_close fd (opened (with_opened p (fd :: opened p)))))).
  { unfold tidy. cbn [with_opened opened foreign objs].
    destruct (remove_perm fd (fd :: opened p) (opened p)) as (A & B); [now constructor|apply Permutation_refl|].
    split; auto. now rewrite A. }
  assert (D : tidy (add_obj (with_opened p (fd :: opened p)) {| knd := k; handle := fd + 1 |})).
  { unfold tidy. cbn [with_opened add_obj opened foreign objs]. split; [now constructor|].
    rewrite held_app. unfold held at 2. cbn [filter handle].
    destruct (Z.ltb_spec 0 (fd + 1)); [|lia]. cbn [map handle]. replace (fd + 1 - 1) with fd by lia.
    rewrite P, app_assoc. apply Permutation_cons_append. }
  match goal with |- tidy (if ?b then _ else _) => destruct b; auto end.
Qed.

Lemma close_tidy i p : tidy p -> tidy (close_at i p)
  /\ foreign (close_at i p) = foreign p
  /\ forall s, nth_error (objs (close_at i p)) i = Some s -> handle s <= 0.
Proof.
  intros [N P]. unfold close_at. destruct (nth_error (objs p) i) as [s|] eqn:E.
  - destruct (Z.ltb_spec 0 (handle s)).
    + splits; auto.
      * cbn [opened foreign objs]. pose proof (held_close _ _ _ E H) as HC. unfold tidy. cbn [opened foreign objs].
        destruct (remove_perm (handle s - 1) (opened p) (foreign p ++ held (upd (objs p) i {| knd := knd s; handle := 0 |}))) as (A & B); auto.
        rewrite P, HC. symmetry. apply Permutation_middle.
      * cbn [objs]. intros s'. rewrite nth_error_upd, Nat.eqb_refl. cbn [andb].
        destruct (Nat.ltb_spec i (length (objs p))); [intros X; injection X as <-; cbn; lia|].
        apply nth_error_None in H0. congruence.
    + splits; auto; [split; auto|]. intros s'. rewrite E. intros X. injection X as <-. lia.
  - splits; auto; [split; auto|]. rewrite E. discriminate.
Qed.

Lemma step_tidy p e : tidy p -> kernel_ok p e -> tidy (step p e).
Proof.
  intros T K. destruct e as [fd a s|fd a s l|fd a s|i fd|i|i|fd|fd]; cbn [step kernel_ok] in *.
  - now apply make_tidy.
  - now apply make_tidy.
  - now apply make_tidy.
  - unfold accept. destruct (nth_error (objs p) i); auto. destruct (negb _); auto.
    pose proof (make_tidy Stream fd 0 p T K) as M. unfold make in M.
    destruct (fd <? 0); auto.
  - now apply close_tidy.
  - destruct (close_tidy i p T) as ([N P] & F & C). unfold tidy. cbn [set_objs opened foreign objs]. split; auto.
    destruct (nth_error (objs (close_at i p)) i) as [s|] eqn:E.
    + rewrite (held_remove _ i s E); auto.
    + apply nth_error_None in E. rewrite firstn_all2, skipn_all2, app_nil_r by lia. auto.
  - destruct T as [N P], K as [Z NI]. unfold tidy. cbn. split; [now constructor|]. now constructor.
  - destruct T as [N P].
    assert (NF : NoDup (foreign p)).
    { eapply Permutation_NoDup in P; eauto. now apply NoDup_app_l in P. }
    destruct (in_split _ _ K) as (f1 & f2 & E).
    assert (PF : Permutation (foreign p) (fd :: f1 ++ f2)) by (rewrite E; symmetry; apply Permutation_middle).
    destruct (remove_perm fd (foreign p) _ NF PF) as (A & _).
    unfold tidy. cbn [opened foreign objs].
    destruct (remove_perm fd (opened p) ((f1 ++ f2) ++ held (objs p))) as (B & C); auto.
    + now rewrite P, PF.
    + split; auto. now rewrite B, A.
Qed.

Lemma history_tidy l : forall p, tidy p -> possible p l -> tidy (history p l).
Proof.
  induction l as [|e l IH]; intros p T P; cbn [history fold_left possible] in *; auto.
  destruct P as (K & P). apply IH; auto. now apply step_tidy.
Qed.

(** * Reading *)

Lemma bcopy_ok {A} (src : buf A) (dst : buf A) d n : n = length src -> (d + n <= length dst)%nat ->
  bcopy src 0 dst d n = Ok (firstn d dst ++ src ++ skipn (d + n) dst).
Proof.
  intros -> L. unfold bcopy. destruct (Nat.leb_spec (0 + length src) (length src)); [|lia].
  destruct (Nat.leb_spec (d + length src) (length dst)); [|lia]. cbn [andb]. rewrite skipn_O, firstn_all. reflexivity.
Qed.

(** The state of the loop: [total] bytes of the input are in place. *)
Lemma read_loop_ok len b0 input : (len <= length b0)%nat ->
  forall sched total, (total <= len)%nat -> (total <= length input)%nat ->
  forall b, b = map Some (firstn total input) ++ skipn total b0 ->
  match read_exact_loop sched b len total (skipn total input) with
  | Ok (Some n, b', rest) => n = len /\ (len <= length input)%nat
      /\ b' = map Some (firstn len input) ++ skipn len b0 /\ rest = skipn len input
  | Ok (None, b', rest) => exists k, (k < len)%nat /\ (k <= length input)%nat
      /\ b' = map Some (firstn k input) ++ skipn k b0 /\ rest = skipn k input
      /\ (k = length input \/ In Error sched)
  | Fuel => (length sched < len - total)%nat
  | _ => False
  end.
Proof.
  intros L. induction sched as [|a sched IH]; intros total T I b B; cbn [read_exact_loop].
  - destruct (Nat.ltb_spec total len).
    + cbn. lia.
    + assert (total = len) by lia. subst. auto.
  - destruct (Nat.ltb_spec total len).
    2:{ assert (total = len) by lia. subst. auto. }
    unfold read, sys_read. destruct a as [n|].
    2:{ cbn [bind]. exists total. splits; auto. right. now left. }
    set (k := Nat.min (len - total) (Nat.min (S n) (length (skipn total input)))).
    assert (KL : (k <= length input - total)%nat) by (subst k; rewrite skipn_length; lia).
    assert (LG : length (firstn k (skipn total input)) = k) by (rewrite firstn_length, skipn_length; lia).
    rewrite bcopy_ok.
    2: now rewrite map_length.
    2:{ rewrite LG, B, app_length, map_length, firstn_length, skipn_length. subst k. lia. }
    cbn [bind]. rewrite LG.
    assert (B' : firstn total b ++ map Some (firstn k (skipn total input)) ++ skipn (total + k) b
        = map Some (firstn (total + k) input) ++ skipn (total + k) b0).
    { rewrite B. assert (LT : length (map (@Some N) (firstn total input)) = total) by (rewrite map_length, firstn_length; lia).
      rewrite firstn_app, LT, Nat.sub_diag. cbn [firstn]. rewrite app_nil_r.
      rewrite firstn_all2 by lia.
      rewrite skipn_app, LT. rewrite (skipn_all2 (n := total + k)) by lia. cbn [app].
      replace (total + k - total)%nat with k by lia. rewrite skipn_skipn'.
      rewrite app_assoc, <- map_app. do 2 f_equal.
      rewrite <- (firstn_skipn total input) at 3. rewrite firstn_app, firstn_firstn, firstn_length.
      replace (Nat.min (total + k) total) with total by lia.
      replace (total + k - Nat.min total (length input))%nat with k by lia. reflexivity. }
    rewrite B'. destruct k as [|k'] eqn:K.
    + exists total. rewrite Nat.add_0_r. splits; auto. left.
      subst k. rewrite skipn_length in K. lia.
    + rewrite skipn_skipn'. specialize (IH (total + S k')%nat). cbv zeta in IH.
      assert (H1 : (total + S k' <= len)%nat) by (subst k; lia).
      assert (H2 : (total + S k' <= length input)%nat) by lia.
      specialize (IH H1 H2 _ eq_refl).
      destruct (read_exact_loop _ _ _ _ _) as [[[[r|] b''] rest]| | |]; auto.
      * destruct IH as (j & J1 & J2 & J3 & J4 & J5). exists j. splits; auto.
        destruct J5; auto. right. now right.
      * cbn [length]. lia.
Qed.
