(** Proofs about the Brainfuck plugin. *)
From Verif Require Import Common Bf_Model Bf_Spec.
Local Open Scope Z_scope.

(** ** Reading the text *)
Definition op_of (c : N) : option stmt :=
  if (c =? 62)%N then Some SRight else if (c =? 60)%N then Some SLeft else if (c =? 43)%N then Some SInc
  else if (c =? 45)%N then Some SDec else if (c =? 46)%N then Some SPut else if (c =? 44)%N then Some SGet else None.

Inductive Code : bytes -> list stmt -> Prop :=
| Code_nil : Code [] []
| Code_comment c r t : op_of c = None -> c <> 91%N -> c <> 93%N -> Code r t -> Code (c :: r) t
| Code_op c x r t : op_of c = Some x -> Code r t -> Code (c :: r) (x :: t)
| Code_loop b r w t : Code b w -> Code r t -> Code (91%N :: b ++ 93%N :: r) (SWhile w :: t).

Lemma bf_char_op c x ls cur st : op_of c = Some x ->
  read_block (bf_char c ++ ls) cur st = read_block ls (cur ++ [x]) st.
Proof.
  unfold op_of, bf_char. intros E.
  repeat match type of E with (if ?b then _ else _) = _ => destruct b; [injection E as <-; reflexivity|] end. discriminate.
Qed.
Lemma bf_char_comment c : op_of c = None -> c <> 91%N -> c <> 93%N -> bf_char c = [].
Proof.
  unfold op_of, bf_char. intros E A B.
  repeat match type of E with (if ?b then _ else _) = _ => destruct b; [discriminate|] end.
  destruct (N.eqb_spec c 91); [congruence|]. destruct (N.eqb_spec c 93); [congruence|]. reflexivity.
Qed.

Lemma code_ex b : Balanced b -> exists t, Code b t.
Proof.
  induction 1 as [|c r A B H [t IH]|b r H [w IH] H2 [t IH2]].
  - exists []. constructor.
  - destruct (op_of c) as [x|] eqn:E; [exists (x :: t); now apply Code_op|exists t; now apply Code_comment].
  - exists (SWhile w :: t). now apply Code_loop.
Qed.
Lemma code_bal b t : Code b t -> Balanced b.
Proof.
  induction 1; try (now constructor).
  constructor; auto; intros X; unfold opens, closes in X; subst; discriminate.
Qed.

Lemma read_code b t : Code b t -> forall ls cur st,
  read_block (flat_map bf_char b ++ ls) cur st = read_block ls (cur ++ t) st.
Proof.
  induction 1 as [|c r t E A B H IH|c x r t E H IH|b r w t H IH H2 IH2]; intros ls cur st; cbn [flat_map].
  - now rewrite app_nil_r.
  - rewrite bf_char_comment by auto. apply IH.
  - rewrite <- app_assoc, (bf_char_op c x) by auto. rewrite IH, <- app_assoc. reflexivity.
  - change (bf_char 91) with [LWhile]. rewrite flat_map_app. cbn [flat_map]. change (bf_char 93) with [LClose].
    rewrite <- !app_assoc. cbn [app read_block]. rewrite IH. cbn [app read_block]. rewrite IH2, <- app_assoc. reflexivity.
Qed.

Lemma block_code b t : Code b t -> c_block (bf_transpile b) = Some t.
Proof. intros H. unfold c_block, bf_transpile. rewrite (read_code b t H). reflexivity. Qed.

Fixpoint Closing (k : nat) (b : bytes) : Prop :=
  match k with
  | O => Balanced b
  | S k => exists b1 b2, b = b1 ++ 93%N :: b2 /\ Balanced b1 /\ Closing k b2
  end.
Lemma closing_char k c r : ~ opens c -> ~ closes c -> Closing k r -> Closing k (c :: r).
Proof.
  intros A B. destruct k; cbn [Closing].
  - now constructor.
  - intros (b1 & b2 & -> & H1 & H2). exists (c :: b1), b2. splits; auto. now constructor.
Qed.
Lemma closing_open k r : Closing (S k) r -> Closing k (91%N :: r).
Proof.
  intros (b1 & b2 & -> & H1 & H2). destruct k; cbn [Closing] in *.
  - now apply Bal_loop.
  - destruct H2 as (b3 & b4 & -> & H3 & H4). exists (91%N :: b1 ++ 93%N :: b3), b4. splits; auto.
    + cbn. rewrite <- app_assoc. reflexivity.
    + now apply Bal_loop.
Qed.
Lemma read_closing b : forall cur st t, read_block (flat_map bf_char b ++ [LEnd]) cur st = Some (t, []) -> Closing (length st) b.
Proof.
  induction b as [|c b IH]; intros cur st t E; cbn [flat_map app] in E.
  - cbn [read_block] in E. destruct st as [|up st]; [constructor|]. discriminate.
  - destruct (op_of c) as [x|] eqn:O.
    + rewrite <- app_assoc, (bf_char_op c x) in E by auto. apply IH in E. apply closing_char; auto;
      intros X; unfold opens, closes in X; subst; discriminate.
    + destruct (N.eqb_spec c 91); [subst|destruct (N.eqb_spec c 93); [subst|]].
      * change (bf_char 91) with [LWhile] in E. cbn [app read_block] in E. apply IH in E. now apply closing_open.
      * change (bf_char 93) with [LClose] in E. cbn [app read_block] in E. destruct st as [|up st].
        { injection E as _ E. destruct (flat_map bf_char b); discriminate. }
        apply IH in E. cbn [length Closing]. exists [], b. splits; auto. constructor.
      * rewrite bf_char_comment in E by auto. apply IH in E. now apply closing_char.
Qed.
Lemma block_balanced b t : c_block (bf_transpile b) = Some t -> Balanced b.
Proof.
  unfold c_block, bf_transpile. destruct (read_block _ [] []) as [[t' [|? ?]]|] eqn:E; try discriminate.
  intros _. now apply read_closing in E.
Qed.

(** ** Brackets *)
Fixpoint depth (b : bytes) : Z :=
  match b with
  | [] => 0
  | c :: r => (if (c =? 91)%N then 1 else if (c =? 93)%N then -1 else 0) + depth r
  end.
Lemma depth_app a b : depth (a ++ b) = depth a + depth b.
Proof. induction a; cbn [app depth]; lia. Qed.
Lemma bal_depth b : Balanced b -> depth b = 0.
Proof.
  induction 1 as [|c r A B H IH|b r H IH H2 IH2]; auto.
  - cbn [depth]. unfold opens, closes in *. destruct (N.eqb_spec c 91); [easy|]. destruct (N.eqb_spec c 93); [easy|]. lia.
  - cbn [depth]. rewrite depth_app. cbn [depth].
    change (91 =? 91)%N with true. change (93 =? 91)%N with false. change (93 =? 93)%N with true. cbv iota. lia.
Qed.
Lemma app_split {A} (a : list A) : forall b c d, a ++ b = c ++ d ->
  (exists x, c = a ++ x /\ b = x ++ d) \/ (exists x, a = c ++ x /\ d = x ++ b).
Proof.
  induction a as [|h a IH]; intros b c d E.
  - left. exists c. auto.
  - destruct c as [|h' c].
    + right. exists (h :: a). auto.
    + cbn in E. injection E as -> E. destruct (IH b c d E) as [(x & -> & ->)|(x & -> & ->)]; [left|right]; exists x; auto.
Qed.
Lemma bal_prefix b : Balanced b -> forall x y, b = x ++ y -> 0 <= depth x.
Proof.
  induction 1 as [|c r A B H IH|b r H IH H2 IH2]; intros x y E.
  - destruct x; [cbn; lia|discriminate].
  - destruct x as [|c' x]; [cbn; lia|]. injection E as <- E. apply IH in E. cbn [depth].
    unfold opens, closes in *. destruct (N.eqb_spec c 91); [easy|]. destruct (N.eqb_spec c 93); [easy|]. lia.
  - destruct x as [|c' x]; [cbn; lia|]. injection E as <- E. cbn [depth]. change (91 =? 91)%N with true. cbv iota.
    symmetry in E. apply app_split in E. destruct E as [(z & E1 & E2)|(z & E1 & E2)].
    + (* x is a prefix of b *) apply IH in E1. lia.
    + subst x. rewrite depth_app, (bal_depth b) by auto. destruct z as [|d z]; [cbn; lia|].
      injection E2 as <- E2. cbn [depth]. change (93 =? 91)%N with false. change (93 =? 93)%N with true. cbv iota.
      apply IH2 in E2. lia.
Qed.
Lemma bal_suffix b : Balanced b -> forall x y, b = x ++ y -> depth y <= 0.
Proof.
  intros H x y E. pose proof (bal_prefix b H x y E). apply bal_depth in H. rewrite E, depth_app in H. lia.
Qed.

Lemma partner_right p i j k : Partner p i j -> Partner p i k -> j = k.
Proof.
  intros (a & b & c & E & B & -> & ->) (a' & b' & c' & E' & B' & L & ->). rewrite E in E'.
  assert (a = a').
  { apply app_split in E'. destruct E' as [(x & -> & _)|(x & -> & _)]; rewrite app_length in L;
    (destruct x; [now rewrite app_nil_r|cbn in L; lia]). }
  subst a'. apply app_inv_head in E'. injection E' as E'.
  apply app_split in E'. destruct E' as [(x & E1 & E2)|(x & E1 & E2)].
  - destruct x as [|y x]; [rewrite app_nil_r in E1; now subst|]. cbn in E2. injection E2 as <- E2. exfalso.
    assert (0 <= depth (b ++ [93%N])).
    { apply (bal_prefix b' B' _ x). rewrite E1, <- app_assoc. reflexivity. }
    rewrite depth_app, (bal_depth b B) in H. change (depth [93%N]) with (-1) in H. lia.
  - destruct x as [|y x]; [rewrite app_nil_r in E1; now subst|]. cbn in E2. injection E2 as <- E2. exfalso.
    assert (0 <= depth (b' ++ [93%N])).
    { apply (bal_prefix b B _ x). rewrite E1, <- app_assoc. reflexivity. }
    rewrite depth_app, (bal_depth b' B') in H. change (depth [93%N]) with (-1) in H. lia.
Qed.
Lemma partner_left p i k j : Partner p i j -> Partner p k j -> i = k.
Proof.
  intros (a & b & c & E & B & -> & J) (a' & b' & c' & E' & B' & -> & J').
  assert (Q : a ++ 91%N :: b = a' ++ 91%N :: b').
  { assert (Q : firstn j p = firstn j p) by auto. rewrite E in Q at 1. rewrite E' in Q.
    change (a ++ 91%N :: b ++ 93%N :: c) with (a ++ (91%N :: b) ++ 93%N :: c) in Q.
    change (a' ++ 91%N :: b' ++ 93%N :: c') with (a' ++ (91%N :: b') ++ 93%N :: c') in Q.
    rewrite !app_assoc in Q.
    assert (FE : forall u v : bytes, firstn (length u) (u ++ v) = u).
    { intros u v. rewrite firstn_app, firstn_all, Nat.sub_diag. cbn. apply app_nil_r. }
    assert (X : j = length (a ++ 91%N :: b)) by (rewrite app_length; cbn [length]; lia).
    assert (Y : j = length (a' ++ 91%N :: b')) by (rewrite app_length; cbn [length]; lia).
    rewrite X in Q at 1. rewrite Y in Q. now rewrite !FE in Q. }
  apply app_split in Q. destruct Q as [(x & E1 & E2)|(x & E1 & E2)].
  - destruct x as [|y x]; [rewrite app_nil_r in E1; now subst|]. cbn in E2. injection E2 as <- E2. exfalso.
    assert (depth (91%N :: b') <= 0) by (apply (bal_suffix b B x); auto).
    cbn [depth] in H. rewrite (bal_depth b' B') in H. change (91 =? 91)%N with true in H. cbv iota in H. lia.
  - destruct x as [|y x]; [rewrite app_nil_r in E1; now subst|]. cbn in E2. injection E2 as <- E2. exfalso.
    assert (depth (91%N :: b) <= 0) by (apply (bal_suffix b' B' x); auto).
    cbn [depth] in H. rewrite (bal_depth b B) in H. change (91 =? 91)%N with true in H. cbv iota in H. lia.
Qed.

(** ** Steps *)
Lemma step_det p m m1 m2 : Step p m m1 -> Step p m m2 -> m1 = m2.
Proof.
  intros A B. inversion A; subst; inversion B; subst; try congruence;
  try (match goal with H : nth_error p (ip m) = Some ?c, K : ~ In ?c' _ |- _ =>
    exfalso; apply K; replace c' with c by congruence; cbn [In]; tauto end).
  - f_equal. f_equal. eapply partner_right; eauto.
  - f_equal. f_equal. eapply partner_left; eauto.
Qed.
Lemma steps_app p a b : forall m m1 m2, Steps p a m m1 -> Steps p b m1 m2 -> Steps p (a + b) m m2.
Proof. intros m m1 m2 H. revert m2. induction H; cbn; auto. intros. econstructor; eauto. Qed.
Lemma steps_one p m m1 : Step p m m1 -> Steps p 1 m m1.
Proof. intros. econstructor; eauto. constructor. Qed.
Lemma halted_stuck p m m' : halted p m -> ~ Step p m m'.
Proof.
  unfold halted. intros H S. assert (nth_error p (ip m) = None) by (apply nth_error_None; lia).
  inversion S; congruence.
Qed.
Lemma steps_stuck p a m m1 : Steps p a m m1 -> halted p m1 -> forall b m2, Steps p b m m2 ->
  (b <= a)%nat /\ (halted p m2 -> m2 = m1).
Proof.
  induction 1 as [m|n m m1 m2 S H IH]; intros Hh b m3 K.
  - inversion K; subst; [auto|]. exfalso. eapply halted_stuck; eauto.
  - inversion K as [|n' ? m4 ? S' K']; subst.
    + split; [lia|]. intros X. exfalso. eapply halted_stuck; eauto.
    + rewrite (step_det _ _ _ _ S S') in *. destruct (IH Hh _ _ K') as [A B]. split; [lia|auto].
Qed.

(** ** Simulation *)
Definition same (s : cst) (m : machine) : Prop :=
  tape s = cells m /\ ptr s = head m /\ inp s = input m /\ out s = output m.

Definition outcome (p : bytes) (n : nat) (m : machine) (r : res cst) (stop : nat) : Prop :=
  match r with
  | Ok s' => exists k m', Steps p k m m' /\ ip m' = stop /\ same s' m'
  | UB => exists k m', Steps p k m m' /\ ~ on_tape m'
  | Fuel => exists k m', (n <= k)%nat /\ Steps p k m m'
  | Panic => False
  end.

Lemma outcome_steps p n k j m m1 r stop : Steps p k m m1 -> outcome p n m1 r stop -> (j <= k + n)%nat -> outcome p j m r stop.
Proof.
  intros S H L. destruct r; cbn in *; auto.
  - destruct H as (k' & m' & H1 & H2). exists (k + k')%nat, m'. split; auto. eapply steps_app; eauto.
  - destruct H as (k' & m' & H1 & H2). exists (k + k')%nat, m'. split; auto. eapply steps_app; eauto.
  - destruct H as (k' & m' & H1 & H2). exists (k + k')%nat, m'. split; [lia|]. eapply steps_app; eauto.
Qed.

Lemma nth_mid {A} (a : list A) x b : nth_error (a ++ x :: b) (length a) = Some x.
Proof. rewrite nth_error_app2 by lia. now rewrite Nat.sub_diag. Qed.

Lemma deref_cases s m : same s m ->
  (on_tape m /\ deref s = Ok (cells m (head m))) \/ (~ on_tape m /\ deref s = UB).
Proof.
  intros (A & B & _). unfold deref, on_tape, tape_size. rewrite A, B.
  destruct (Z.leb_spec 0 (head m)); destruct (Z.ltb_spec (head m) 30000); cbn [andb]; auto; right; split; auto; lia.
Qed.
Lemma assign_on s m v : same s m -> on_tape m -> assign s v = Ok (C (written m v) (head m) (input m) (output m)).
Proof.
  intros (A & B & C0 & D) O. unfold assign, on_tape, tape_size, written, upd_tape in *. rewrite A, B, C0, D.
  destruct (Z.leb_spec 0 (head m)); [|lia]. destruct (Z.ltb_spec (head m) 30000); [|lia]. reflexivity.
Qed.

(** one statement that is not a loop *)
Lemma simple_sim p c x s m : same s m -> op_of c = Some x -> nth_error p (ip m) = Some c ->
  match simple x s with
  | Ok s' => exists m', Step p m m' /\ ip m' = S (ip m) /\ same s' m'
  | UB => exists k m', Steps p k m m' /\ ~ on_tape m'
  | _ => False
  end.
Proof.
  intros H O E. pose proof H as (H1 & H2 & H3 & H4). unfold op_of in O.
  destruct (N.eqb_spec c 62). { injection O as <-. subst c. cbn [simple]. unfold move, tape_size. rewrite H1, H2, H3, H4.
    destruct (Z.leb_spec 0 (head m + 1)); cbn [andb].
    2:{ exists 0%nat, m. split; [constructor|]. unfold on_tape. lia. }
    destruct (Z.leb_spec (head m + 1) 30000); cbn [andb].
    - eexists. split; [now apply S_right|]. split; reflexivity || (repeat split; reflexivity).
    - exists 0%nat, m. split; [constructor|]. unfold on_tape. lia. }
  destruct (N.eqb_spec c 60). { injection O as <-. subst c. cbn [simple]. unfold move, tape_size. rewrite H1, H2, H3, H4.
    destruct (Z.leb_spec 0 (head m + -1)); cbn [andb].
    2:{ destruct (Z_lt_dec (head m) 0).
        - exists 0%nat, m. split; [constructor|]. unfold on_tape. lia.
        - eexists 1%nat, _. split; [apply steps_one; now apply S_left|]. unfold on_tape. cbn. lia. }
    destruct (Z.leb_spec (head m + -1) 30000); cbn [andb].
    - eexists. split; [now apply S_left|]. split; reflexivity || (repeat split; reflexivity).
    - exists 0%nat, m. split; [constructor|]. unfold on_tape. lia. }
  assert (Bad : ~ on_tape m -> exists k m', Steps p k m m' /\ ~ on_tape m') by (exists 0%nat, m; split; [constructor|auto]).
  destruct (N.eqb_spec c 43). { injection O as <-. subst c. cbn [simple].
    destruct (deref_cases s m H) as [[T ->]|[T ->]]; cbn [bind]; auto. rewrite (assign_on s m) by auto.
    eexists. split; [now apply S_inc|]. split; [reflexivity|repeat split]. }
  destruct (N.eqb_spec c 45). { injection O as <-. subst c. cbn [simple].
    destruct (deref_cases s m H) as [[T ->]|[T ->]]; cbn [bind]; auto. rewrite (assign_on s m) by auto.
    eexists. split; [now apply S_dec|]. split; [reflexivity|repeat split]. }
  destruct (N.eqb_spec c 46). { injection O as <-. subst c. cbn [simple].
    destruct (deref_cases s m H) as [[T ->]|[T ->]]; cbn [bind]; auto.
    eexists. split; [now apply S_put|]. split; [reflexivity|]. repeat split; cbn; auto. now rewrite H4. }
  destruct (N.eqb_spec c 44); [|discriminate]. injection O as <-. subst c. cbn [simple].
  destruct (deref_cases s m H) as [[T _]|[T D]].
  - rewrite H3. destruct (input m) as [|c r] eqn:I.
    + rewrite (assign_on s m) by auto. eexists. split; [now apply S_eof|]. split; [reflexivity|]. rewrite I. repeat split; auto.
    + assert (H' : same (C (tape s) (ptr s) r (out s)) (M (ip m) (cells m) (head m) r (output m))) by (repeat split; auto).
      rewrite (assign_on _ _ (Z.of_N c) H') by auto. eexists. split; [apply S_get; eauto|]. split; [reflexivity|repeat split].
  - assert (forall i v, assign (C (tape s) (ptr s) i (out s)) v = UB).
    { intros i v. unfold assign, deref in *. cbn [ptr]. destruct ((0 <=? ptr s) && (ptr s <? tape_size)); auto. discriminate. }
    destruct (inp s) as [|c r] eqn:I.
    + replace s with (C (tape s) (ptr s) [] (out s)) by (destruct s; cbn in *; congruence). rewrite H0. auto.
    + rewrite H0. auto.
Qed.

(** leading comments *)
Lemma strip b t : Code b t -> exists c r, b = c ++ r /\ Forall (fun x => op_of x = None /\ x <> 91%N /\ x <> 93%N) c /\
  ((r = [] /\ t = []) \/
   (exists x y r' t', r = x :: r' /\ t = y :: t' /\ op_of x = Some y /\ Code r' t') \/
   (exists b1 b2 w t', r = 91%N :: b1 ++ 93%N :: b2 /\ t = SWhile w :: t' /\ Code b1 w /\ Code b2 t')).
Proof.
  induction 1 as [|c r t E A B H IH|c x r t E H IH|b r w t H IH H2 IH2].
  - exists [], []. auto.
  - destruct IH as (c' & r' & -> & F & K). exists (c :: c'), r'. splits; auto.
  - exists [], (c :: r). splits; auto. right. left. exists c, x, r, t. auto.
  - exists [], (91%N :: b ++ 93%N :: r). splits; auto. right. right. exists b, r, w, t. auto.
Qed.

Definition moved (m : machine) (k : nat) : machine := M k (cells m) (head m) (input m) (output m).
Lemma same_moved s m k : same s m -> same s (moved m k).
Proof. intros (A & B & C0 & D). repeat split; auto. Qed.
Lemma comment_steps c : forall p pre post m, p = pre ++ c ++ post -> ip m = length pre ->
  Forall (fun x => op_of x = None /\ x <> 91%N /\ x <> 93%N) c ->
  Steps p (length c) m (moved m (length pre + length c)).
Proof.
  induction c as [|x c IH]; intros p pre post m Ep Ei F; cbn [length].
  - rewrite Nat.add_0_r, <- Ei. destruct m. constructor.
  - inversion F as [|? ? (O & N1 & N2) F']; subst. econstructor.
    + apply (S_comment _ m x). { rewrite Ei. apply nth_mid. }
      unfold op_of in O. intros X. cbn [In] in X.
      repeat match type of O with (if (?a =? ?b)%N then _ else _) = _ => destruct (N.eqb_spec a b); [discriminate|] end.
      intuition congruence.
    + specialize (IH (pre ++ (x :: c) ++ post) (pre ++ [x]) post (moved m (S (ip m)))).
      rewrite app_length in IH. cbn [length] in IH. replace (length pre + S (length c))%nat with (length pre + 1 + length c)%nat by lia.
      apply IH; auto.
      * rewrite <- app_assoc. reflexivity.
      * cbn. lia.
Qed.

Lemma exec_loop n w r s : exec (S n) (SWhile w :: r) s =
  do v <- deref s; if v =? 0 then exec n r s else do s <- exec n w s; exec n (SWhile w :: r) s.
Proof. reflexivity. Qed.
Lemma exec_simple n c x r s : op_of c = Some x -> exec (S n) (x :: r) s = do s <- simple x s; exec n r s.
Proof.
  intros O. unfold op_of in O.
  repeat match type of O with (if ?b then _ else _) = _ => destruct b; [injection O as <-; reflexivity|] end. discriminate.
Qed.

Lemma sim n :
  (forall b t, Code b t -> forall p pre post s m, p = pre ++ b ++ post -> ip m = length pre -> same s m ->
    outcome p n m (exec n t s) (length pre + length b)) /\
  (forall b1 b2 w t, Code b1 w -> Code b2 t -> forall p pre post s m,
    p = pre ++ (91%N :: b1 ++ 93%N :: b2) ++ post ->
    (ip m = length pre \/ ip m = (length pre + S (length b1))%nat) -> same s m ->
    outcome p n m (exec n (SWhile w :: t) s) (length pre + length (91%N :: b1 ++ 93%N :: b2))).
Proof.
  induction n as [|n [IHC IHL]].
  - split; intros; cbn; exists 0%nat, m; split; auto; constructor.
  - assert (L : forall b1 b2 w t, Code b1 w -> Code b2 t -> forall p pre post s m,
      p = pre ++ (91%N :: b1 ++ 93%N :: b2) ++ post ->
      (ip m = length pre \/ ip m = (length pre + S (length b1))%nat) -> same s m ->
      outcome p (S n) m (exec (S n) (SWhile w :: t) s) (length pre + length (91%N :: b1 ++ 93%N :: b2))).
    { intros b1 b2 w t C1 C2 p pre post s m Ep Ei Hs.
      assert (Pa : Partner p (length pre) (length pre + S (length b1))).
      { exists pre, b1, (b2 ++ post). splits; auto. { rewrite Ep. cbn. rewrite <- app_assoc. reflexivity. } eapply code_bal; eauto. }
      assert (Nx : nth_error p (length pre) = Some 91%N) by (rewrite Ep; apply nth_mid).
      assert (Ny : nth_error p (length pre + S (length b1)) = Some 93%N).
      { rewrite Ep. replace (pre ++ (91%N :: b1 ++ 93%N :: b2) ++ post) with ((pre ++ 91%N :: b1) ++ 93%N :: (b2 ++ post)).
        - replace (length pre + S (length b1))%nat with (length (pre ++ 91%N :: b1)) by (rewrite app_length; reflexivity). apply nth_mid.
        - cbn. rewrite <- !app_assoc. reflexivity. }
      rewrite exec_loop.
      destruct (deref_cases s m Hs) as [[T ->]|[T ->]]; cbn [bind].
      2:{ exists 0%nat, m. split; auto. constructor. }
      destruct (Z.eqb_spec (cells m (head m)) 0) as [V|V].
      - assert (St : Step p m (moved m (S (length pre + S (length b1))))).
        { destruct Ei as [Ei|Ei].
          - apply S_skip; auto; rewrite Ei; auto.
          - rewrite <- Ei. apply S_leave; auto. now rewrite Ei. }
        eapply outcome_steps; [apply steps_one; exact St| |apply le_n].
        specialize (IHC b2 t C2 p (pre ++ 91%N :: b1 ++ [93%N]) post s (moved m (S (length pre + S (length b1))))).
        rewrite !app_length in IHC. cbn [length] in IHC. rewrite !app_length in IHC. cbn [length] in IHC.
        replace (length pre + length (91%N :: b1 ++ 93%N :: b2))%nat with (length pre + S (length b1 + 1) + length b2)%nat
          by (cbn [length]; rewrite app_length; cbn [length]; lia).
        apply IHC.
        + rewrite Ep. cbn. rewrite <- !app_assoc. cbn. rewrite <- !app_assoc. reflexivity.
        + cbn. lia.
        + now apply same_moved.
      - assert (St : Step p m (moved m (S (length pre)))).
        { destruct Ei as [Ei|Ei].
          - rewrite <- Ei. apply S_enter; auto. now rewrite Ei.
          - apply S_again; auto; rewrite Ei; auto. }
        eapply outcome_steps; [apply steps_one; exact St| |apply le_n].
        pose proof (IHC b1 w C1 p (pre ++ [91%N]) (93%N :: b2 ++ post) s (moved m (S (length pre)))) as K.
        rewrite app_length in K. cbn [length] in K. specialize (K ltac:(rewrite Ep; cbn; rewrite <- !app_assoc; reflexivity) ltac:(cbn; lia) (same_moved _ _ _ Hs)).
        destruct (exec n w s) as [s1| | |]; cbn [bind]; auto.
        cbn in K. destruct K as (k & m1 & K1 & K2 & K3).
        eapply outcome_steps; [exact K1| |].
        + apply (IHL b1 b2 w t C1 C2 p pre post s1 m1); auto. right. rewrite K2. lia.
        + lia. }
    split; [|exact L].
    intros b t C0 p pre post s m Ep Ei Hs.
    destruct (strip b t C0) as (c & r & -> & F & K).
    rewrite <- app_assoc in Ep.
    pose proof (comment_steps c p pre (r ++ post) m Ep Ei F) as Sc.
    rewrite app_length, Nat.add_assoc.
    eapply outcome_steps; [exact Sc| |instantiate (1 := S n); lia].
    pose proof (same_moved s m (length pre + length c) Hs) as Hm.
    assert (Ep' : p = (pre ++ c) ++ r ++ post) by (rewrite <- app_assoc; exact Ep).
    destruct K as [(-> & ->)|[(x & y & r' & t' & -> & -> & O & Cr)|(b1 & b2 & w & t' & -> & -> & C1 & C2)]].
    + cbn [exec outcome length]. exists 0%nat, (moved m (length pre + length c)). splits; [constructor|cbn [moved ip]; lia|auto].
    + rewrite (exec_simple n x) by auto.
      assert (Nx : nth_error p (ip (moved m (length pre + length c))) = Some x).
      { cbn. rewrite Ep'. replace (length pre + length c)%nat with (length (pre ++ c)) by apply app_length. apply nth_mid. }
      pose proof (simple_sim p x y s _ Hm O Nx) as Q.
      destruct (simple y s) as [s1| | |]; cbn [bind]; try contradiction.
      * destruct Q as (m1 & Q1 & Q2 & Q3). eapply outcome_steps; [apply steps_one; exact Q1| |apply le_n].
        pose proof (IHC r' t' Cr p ((pre ++ c) ++ [x]) post s1 m1) as I.
        rewrite !app_length in I. cbn [length] in I. cbn [length].
        replace (length pre + length c + S (length r'))%nat with (length pre + length c + 1 + length r')%nat by lia.
        apply I; auto.
        -- rewrite Ep'. rewrite <- !app_assoc. reflexivity.
        -- rewrite Q2. cbn. lia.
      * exact Q.
    + pose proof (L b1 b2 w t' C1 C2 p (pre ++ c) post s (moved m (length pre + length c)) Ep') as I.
      rewrite app_length in I. apply I; auto.
Qed.
