From Verif Require Import Common Lev_Model Lev_Spec.
Local Open Scope nat_scope.

(** * The recursion and alignments *)
Fixpoint D (a : bytes) : bytes -> nat :=
  match a with
  | [] => fun b => length b
  | x :: a' =>
    fix Dx (b : bytes) : nat :=
      match b with
      | [] => S (length a')
      | y :: b' => Nat.min (Nat.min (S (D a' b)) (S (Dx b'))) (D a' b' + if (x =? y)%N then 0 else 1)
      end
  end.
Lemma D_nil_r a : D a [] = length a.
Proof. now destruct a. Qed.
Lemma D_cons x a y b :
  D (x :: a) (y :: b) = Nat.min (Nat.min (S (D a (y :: b))) (S (D (x :: a) b))) (D a b + if (x =? y)%N then 0 else 1).
Proof. reflexivity. Qed.

Inductive align : bytes -> bytes -> nat -> Prop :=
| al_nil : align [] [] 0
| al_keep x a b n : align a b n -> align (x :: a) (x :: b) n
| al_sub x y a b n : align a b n -> align (x :: a) (y :: b) (S n)
| al_ins y a b n : align a b n -> align a (y :: b) (S n)
| al_del x a b n : align a b n -> align (x :: a) b (S n).

Lemma align_D a b n : align a b n -> D a b <= n.
Proof.
  induction 1 as [|x a b n H IH|x y a b n H IH|y a b n H IH|x a b n H IH].
  - cbn. lia.
  - rewrite D_cons, N.eqb_refl. lia.
  - rewrite D_cons. destruct (x =? y)%N; lia.
  - destruct a as [|x a]; [cbn in *; lia|]. rewrite D_cons. lia.
  - destruct b as [|y b]; [rewrite D_nil_r in *; cbn in *; lia|]. rewrite D_cons. lia.
Qed.
Lemma align_ins_all b : align [] b (length b).
Proof. induction b; cbn; constructor; auto. Qed.
Lemma align_del_all a : align a [] (length a).
Proof. induction a; cbn; constructor; auto. Qed.
Lemma D_align a : forall b, align a b (D a b).
Proof.
  induction a as [|x a IHa]; intros b; [apply align_ins_all|].
  induction b as [|y b IHb]; [apply align_del_all|].
  rewrite D_cons.
  destruct (Nat.min_spec (Nat.min (S (D a (y :: b))) (S (D (x :: a) b))) (D a b + if (x =? y)%N then 0 else 1)) as [[_ ->]|[_ ->]].
  - destruct (Nat.min_spec (S (D a (y :: b))) (S (D (x :: a) b))) as [[_ ->]|[_ ->]].
    + apply al_del, IHa.
    + apply al_ins, IHb.
  - destruct (N.eqb_spec x y) as [->|_].
    + rewrite Nat.add_0_r. apply al_keep, IHa.
    + rewrite Nat.add_1_r. apply al_sub, IHa.
Qed.

Lemma align_insert s t n : align s t n -> forall a x b, t = a ++ b -> exists m, m <= S n /\ align s (a ++ x :: b) m.
Proof.
  induction 1 as [|z s t n H IH|z y s t n H IH|y s t n H IH|z s t n H IH]; intros a x b E.
  - symmetry in E. apply app_eq_nil in E. destruct E as [-> ->]. exists 1. split; [lia|]. repeat constructor.
  - destruct a as [|a0 a]; cbn [app] in *.
    + subst b. exists (S n). split; [lia|]. apply al_ins, al_keep, H.
    + injection E as -> ->. destruct (IH a x b eq_refl) as (m & L & A). exists m. split; [lia|]. now apply al_keep.
  - destruct a as [|a0 a]; cbn [app] in *.
    + subst b. exists (S (S n)). split; [lia|]. apply al_ins, al_sub, H.
    + injection E as -> ->. destruct (IH a x b eq_refl) as (m & L & A). exists (S m). split; [lia|]. now apply al_sub.
  - destruct a as [|a0 a]; cbn [app] in *.
    + subst b. exists (S (S n)). split; [lia|]. apply al_ins, al_ins, H.
    + injection E as -> ->. destruct (IH a x b eq_refl) as (m & L & A). exists (S m). split; [lia|]. now apply al_ins.
  - destruct (IH a x b E) as (m & L & A). exists (S m). split; [lia|]. now apply al_del.
Qed.
Lemma align_delete s t n : align s t n -> forall a x b, t = a ++ x :: b -> exists m, m <= S n /\ align s (a ++ b) m.
Proof.
  induction 1 as [|z s t n H IH|z y s t n H IH|y s t n H IH|z s t n H IH]; intros a x b E.
  - now destruct a.
  - destruct a as [|a0 a]; cbn [app] in *; injection E as -> ->.
    + exists (S n). split; [lia|]. now apply al_del.
    + destruct (IH a x b eq_refl) as (m & L & A). exists m. split; [lia|]. now apply al_keep.
  - destruct a as [|a0 a]; cbn [app] in *; injection E as -> ->.
    + exists (S n). split; [lia|]. now apply al_del.
    + destruct (IH a x b eq_refl) as (m & L & A). exists (S m). split; [lia|]. now apply al_sub.
  - destruct a as [|a0 a]; cbn [app] in *; injection E as -> ->.
    + exists n. split; [lia|]. exact H.
    + destruct (IH a x b eq_refl) as (m & L & A). exists (S m). split; [lia|]. now apply al_ins.
  - destruct (IH a x b E) as (m & L & A). exists (S m). split; [lia|]. now apply al_del.
Qed.
Lemma align_replace s t n : align s t n -> forall a x y b, t = a ++ x :: b -> exists m, m <= S n /\ align s (a ++ y :: b) m.
Proof.
  induction 1 as [|z s t n H IH|z w s t n H IH|w s t n H IH|z s t n H IH]; intros a x y b E.
  - now destruct a.
  - destruct a as [|a0 a]; cbn [app] in *; injection E as -> ->.
    + exists (S n). split; [lia|]. now apply al_sub.
    + destruct (IH a x y b eq_refl) as (m & L & A). exists m. split; [lia|]. now apply al_keep.
  - destruct a as [|a0 a]; cbn [app] in *; injection E as -> ->.
    + exists (S n). split; [lia|]. now apply al_sub.
    + destruct (IH a x y b eq_refl) as (m & L & A). exists (S m). split; [lia|]. now apply al_sub.
  - destruct a as [|a0 a]; cbn [app] in *; injection E as -> ->.
    + exists (S n). split; [lia|]. now apply al_ins.
    + destruct (IH a x y b eq_refl) as (m & L & A). exists (S m). split; [lia|]. now apply al_ins.
  - destruct (IH a x y b E) as (m & L & A). exists (S m). split; [lia|]. now apply al_del.
Qed.
Lemma align_refl s : align s s 0.
Proof. induction s; constructor; auto. Qed.
Lemma edits_snoc n s t u : edits n s t -> edit t u -> edits (S n) s u.
Proof.
  induction 1 as [s|n s t v E H IH]; intros X.
  - econstructor; [exact X|constructor].
  - econstructor; [exact E|]. now apply IH.
Qed.
Lemma edits_align n s t : edits n s t -> forall r k, align r s k -> exists m, m <= k + n /\ align r t m.
Proof.
  induction 1 as [s|n s t u E H IH]; intros r k A.
  - exists k. split; [lia|exact A].
  - assert (X : exists m, m <= S k /\ align r t m).
    { destruct E; [eapply align_insert|eapply align_delete|eapply align_replace]; eauto. }
    destruct X as (m & L & A'). destruct (IH r m A') as (m' & L' & A2). exists m'. split; [lia|exact A2].
Qed.
Lemma edit_cons x s t : edit s t -> edit (x :: s) (x :: t).
Proof.
  intros E. destruct E.
  - apply (insert (x :: a)).
  - apply (delete (x :: a)).
  - apply (replace (x :: a)).
Qed.
Lemma edits_cons x n s t : edits n s t -> edits n (x :: s) (x :: t).
Proof. induction 1; econstructor; eauto using edit_cons. Qed.
Lemma align_edits s t n : align s t n -> edits n s t.
Proof.
  induction 1.
  - constructor.
  - now apply edits_cons.
  - econstructor; [apply (replace [] x y a)|]. now apply edits_cons.
  - eapply edits_snoc; [exact IHalign|]. apply (insert [] y b).
  - econstructor; [apply (delete [] x a)|exact IHalign].
Qed.
Lemma D_distance s t : distance s t (D s t).
Proof.
  split.
  - apply align_edits, D_align.
  - intros n H. destruct (edits_align n s t H s 0 (align_refl s)) as (m & L & A). apply align_D in A. lia.
Qed.

(** Reversal *)
Lemma edit_rev s t : edit s t -> edit (rev s) (rev t).
Proof.
  intros E. destruct E; rewrite !rev_app_distr; cbn [rev]; rewrite <- ?app_assoc; cbn [app].
  - apply insert.
  - apply delete.
  - apply replace.
Qed.
Lemma edits_rev n s t : edits n s t -> edits n (rev s) (rev t).
Proof. induction 1; econstructor; eauto using edit_rev. Qed.
Lemma distance_rev s t d : distance (rev s) (rev t) d -> distance s t d.
Proof.
  intros [E M]. split.
  - apply edits_rev in E. now rewrite !rev_involutive in E.
  - intros n H. apply M. now apply edits_rev.
Qed.
Lemma distance_unique s t d e : distance s t d -> distance s t e -> d = e.
Proof. intros [A B] [C E]. apply Nat.le_antisymm; auto. Qed.
Lemma edits_length n s t : edits n s t -> length s <= length t + n /\ length t <= length s + n.
Proof.
  induction 1 as [s|n s t u E H [I1 I2]]; [lia|].
  destruct E; rewrite ?app_length in *; cbn [length] in *; rewrite ?app_length in *; cbn [length] in *; lia.
Qed.

(** * The loops *)
Lemma for_seq {A} (P : nat -> A -> Prop) body : forall n a s, P a s ->
  (forall k s, a <= k < a + n -> P k s -> exists s', body k s = Ok s' /\ P (S k) s') ->
  exists s', for_each (seq a n) body s = Ok s' /\ P (a + n) s'.
Proof.
  induction n as [|n IH]; intros a s H0 HS.
  - exists s. split; [reflexivity|]. now rewrite Nat.add_0_r.
  - cbn [seq for_each]. destruct (HS a s ltac:(lia) H0) as (s1 & -> & H1). cbn [bind].
    destruct (IH (S a) s1 H1) as (s2 & E2 & H2); [intros; apply HS; auto; lia|].
    exists s2. split; [exact E2|]. now rewrite Nat.add_succ_r.
Qed.

Definition P (s : bytes) (i : nat) := rev (firstn i s).
Lemma P_S s i x : nth_error s i = Some x -> P s (S i) = x :: P s i.
Proof.
  intros H. unfold P. revert i H. induction s as [|y s IH]; intros [|i] H; cbn in H; try discriminate.
  - now injection H as ->.
  - cbn [firstn rev]. cbn [firstn] in IH. rewrite (IH i H). reflexivity.
Qed.
Lemma P_length s i : i <= length s -> length (P s i) = i.
Proof. intros. unfold P. rewrite rev_length, firstn_length. lia. Qed.

Lemma mset_ok len1 len2 m i j v : i <= len1 -> j <= len2 ->
  mset len1 len2 m i j v = Ok (fun a b => if (a =? i) && (b =? j) then Some v else m a b).
Proof. intros H1 H2. unfold mset. apply Nat.leb_le in H1, H2. now rewrite H1, H2. Qed.
Lemma mget_ok len1 len2 m i j v : i <= len1 -> j <= len2 -> m i j = Some v -> mget len1 len2 m i j = Ok v.
Proof. intros H1 H2 E. unfold mget. apply Nat.leb_le in H1, H2. now rewrite H1, H2, E. Qed.

Section Fill.
Variables s1 s2 : bytes.
Notation dd i j := (D (P s1 i) (P s2 j)).
(** Cells before (i, j) in row order are right *)
Definition filled (i j : nat) (m : matrix) : Prop :=
  (forall a, a <= length s1 -> m a 0 = Some a) /\ (forall b, b <= length s2 -> m 0 b = Some b) /\
  (forall a b, 1 <= a <= length s1 -> 1 <= b <= length s2 -> a < i \/ (a = i /\ b < j) -> m a b = Some (dd a b)).
Lemma filled_get i j m a b : filled i j m -> a <= length s1 -> b <= length s2 ->
  a = 0 \/ b = 0 \/ a < i \/ (a = i /\ b < j) -> m a b = Some (dd a b).
Proof.
  intros (F1 & F2 & F3) A B C.
  destruct (Nat.eq_dec a 0) as [->|A0].
  { rewrite F2 by lia. cbn. now rewrite P_length. }
  destruct (Nat.eq_dec b 0) as [->|B0].
  { rewrite F1 by lia. change (P s2 0) with (@nil N). now rewrite D_nil_r, P_length. }
  apply F3; lia.
Qed.
Lemma cell_step i j m : 1 <= i <= length s1 -> 1 <= j <= length s2 -> filled i j m ->
  exists m', cell s1 s2 i j m = Ok m' /\ filled i (S j) m'.
Proof.
  intros I J F. unfold cell.
  destruct (nth_error_lt s1 (i - 1)) as [x Hx]; [lia|]. destruct (nth_error_lt s2 (j - 1)) as [y Hy]; [lia|].
  rewrite Hx, Hy.
  rewrite (mget_ok _ _ m (i - 1) j (dd (i - 1) j)) by (try lia; apply (filled_get i j); auto; lia). cbn [bind].
  rewrite (mget_ok _ _ m i (j - 1) (dd i (j - 1))) by (try lia; apply (filled_get i j); auto; lia). cbn [bind].
  rewrite (mget_ok _ _ m (i - 1) (j - 1) (dd (i - 1) (j - 1))) by (try lia; apply (filled_get i j); auto; lia). cbn [bind].
  rewrite mset_ok by lia. cbn [bind].
  set (v := if _ <? _ then _ else _). rewrite (mget_ok _ _ _ i j v); [|lia|lia|now rewrite !Nat.eqb_refl]. cbn [bind].
  assert (EI : P s1 i = x :: P s1 (i - 1)) by (replace i with (S (i - 1)) at 1 by lia; now apply P_S).
  assert (EJ : P s2 j = y :: P s2 (j - 1)) by (replace j with (S (j - 1)) at 1 by lia; now apply P_S).
  assert (EV : v = Nat.min (S (dd (i - 1) j)) (S (dd i (j - 1)))).
  { unfold v. destruct (Nat.ltb_spec (dd (i - 1) j + 1) (dd i (j - 1) + 1)); lia. }
  clearbody v.
  assert (R : dd i j = Nat.min v (dd (i - 1) (j - 1) + (if (x =? y)%N then 0 else 1))).
  { rewrite EV, EI, EJ, D_cons. reflexivity. }
  assert (K : forall w m', w = dd i j ->
     (forall a b, m' a b = if (a =? i) && (b =? j) then Some w else m a b) -> filled i (S j) m').
  { intros w m' -> E. destruct F as (F1 & F2 & F3). unfold filled. splits.
    - intros a A. rewrite E. destruct (Nat.eqb_spec 0 j); [lia|]. rewrite Bool.andb_false_r. now apply F1.
    - intros b B. rewrite E. destruct (Nat.eqb_spec 0 i); [lia|]. now apply F2.
    - intros a b A B C. rewrite E.
      destruct (Nat.eqb_spec a i) as [->|]; [|apply F3; lia].
      destruct (Nat.eqb_spec b j) as [->|]; [reflexivity|]. cbn. apply F3; lia. }
  destruct (Nat.ltb_spec (dd (i - 1) (j - 1) + (if (x =? y)%N then 0 else 1)) v) as [L|L].
  - rewrite mset_ok by lia. eexists. split; [reflexivity|]. eapply K; [|].
    2:{ intros a b. cbn beta. destruct ((a =? i) && (b =? j)); reflexivity. }
    lia.
  - eexists. split; [reflexivity|]. eapply K; [|intros a b; reflexivity]. lia.
Qed.
Lemma fill : forall m, filled 1 1 m -> exists m',
  for_each (seq 1 (length s1)) (fun i m => for_each (seq 1 (length s2)) (fun j m => cell s1 s2 i j m) m) m = Ok m' /\
  filled (1 + length s1) 1 m'.
Proof.
  intros m F. apply (for_seq (fun i m => filled i 1 m)); auto.
  intros i m0 I F0. destruct (for_seq (fun j m => filled i j m) (fun j m => cell s1 s2 i j m) (length s2) 1 m0 F0) as (m1 & E1 & F1).
  { intros j m1 J F1. apply cell_step; auto; lia. }
  exists m1. split; [exact E1|]. destruct F1 as (A & B & C). unfold filled. splits; auto.
  intros a b Ha Hb H. apply C; auto. lia.
Qed.
End Fill.

Lemma levenshtein_ok s1 s2 : (length s1 - length s2) + (length s2 - length s1) <= 3 ->
  exists d, levenshtein s1 s2 = Ok d /\ distance s1 s2 d.
Proof.
  intros L. unfold levenshtein. apply Nat.leb_le in L. rewrite L.
  destruct (for_seq (fun k (m : matrix) => forall a, a < k -> m a 0 = Some a)
     (fun i m => mset (length s1) (length s2) m i 0 i) (S (length s1)) 0 (fun _ _ => None)) as (m1 & -> & F1).
  { intros; lia. }
  { intros k m K F. rewrite mset_ok by lia. eexists. split; [reflexivity|]. intros a A. cbn beta.
    destruct (Nat.eqb_spec a k) as [->|]; [reflexivity|]. apply F. lia. }
  cbn [bind].
  destruct (for_seq (fun k (m : matrix) => (forall a, a <= length s1 -> m a 0 = Some a) /\ forall b, b < k -> m 0 b = Some b)
     (fun j m => mset (length s1) (length s2) m 0 j j) (S (length s2)) 0 m1) as (m2 & -> & F2 & F3).
  { split; intros; [apply F1|]; lia. }
  { intros k m K [Fa Fb]. rewrite mset_ok by lia. eexists. split; [reflexivity|]. split.
    - intros a A. cbn beta. destruct (Nat.eqb_spec a 0) as [->|]; [|now apply Fa].
      destruct (Nat.eqb_spec 0 k) as [<-|]; [reflexivity|]. now apply Fa.
    - intros b B. cbn beta. cbn. destruct (Nat.eqb_spec b k) as [->|]; [reflexivity|]. apply Fb. lia. }
  cbn [bind].
  destruct (fill s1 s2 m2) as (m3 & -> & F).
  { unfold filled. splits; auto; intros; [apply F3|]; lia. }
  cbn [bind]. exists (D (P s1 (length s1)) (P s2 (length s2))).
  split.
  - apply mget_ok; try lia. apply (filled_get s1 s2 _ _ _ _ _ F); lia.
  - unfold P. rewrite !firstn_all. apply distance_rev, D_distance.
Qed.

(** The answer in all cases *)
Lemma levenshtein_cases s1 s2 : exists d, levenshtein s1 s2 = Ok d /\
  (distance s1 s2 d \/ (d = 999 /\ forall n, edits n s1 s2 -> 3 < n)).
Proof.
  destruct (Nat.le_gt_cases ((length s1 - length s2) + (length s2 - length s1)) 3) as [L|L].
  - destruct (levenshtein_ok s1 s2 L) as (d & E & Q). exists d. auto.
  - exists 999. unfold levenshtein. destruct (Nat.leb_spec ((length s1 - length s2) + (length s2 - length s1)) 3); [lia|].
    split; [reflexivity|]. right. split; [reflexivity|]. intros n E. apply edits_length in E. lia.
Qed.

(** * Suggestions *)
Definition best_ok (name : bytes) (seen : list bytes) (best : option bytes * nat) : Prop :=
  match best with
  | (None, d) => d = 999 /\ forall s n, In s seen -> edits n name s -> 3 < n
  | (Some b, d) => d <= 3 /\ In b seen /\ distance name b d /\ forall s n, In s seen -> edits n name s -> d <= n
  end.
Lemma scan_symbols_ok name : forall syms seen best, best_ok name seen best ->
  exists best', scan_symbols name syms best = Ok best' /\ best_ok name (seen ++ syms) best'.
Proof.
  induction syms as [|s r IH]; intros seen best B.
  - exists best. split; [reflexivity|]. now rewrite app_nil_r.
  - cbn [scan_symbols]. destruct (levenshtein_cases name s) as (d & -> & Q). cbn [bind].
    replace (seen ++ s :: r) with ((seen ++ [s]) ++ r) by (now rewrite <- app_assoc).
    apply IH. destruct best as [o bd]. cbn [snd].
    destruct (Nat.ltb_spec d bd) as [L1|L1], (Nat.leb_spec d 3) as [L2|L2]; cbn [andb].
    + destruct Q as [Q|[-> _]]; [|lia]. cbn. splits; auto.
      * apply in_or_app; right; now left.
      * intros t n I E. apply in_app_or in I. destruct I as [I|[<-|[]]]; [|now apply Q].
        destruct o as [b|]; cbn in B.
        -- destruct B as (_ & _ & _ & B). specialize (B t n I E). lia.
        -- destruct B as (_ & B). specialize (B t n I E). lia.
    + destruct o as [b|]; cbn in B |- *.
      * destruct B as (B1 & B2 & B3 & B4). splits; auto; [apply in_or_app; now left|].
        intros t n I E. apply in_app_or in I. destruct I as [I|[<-|[]]]; [now apply (B4 t)|].
        destruct Q as [Q|[_ Q]]; [|specialize (Q n E); lia]. destruct Q as [_ Q]. specialize (Q n E). lia.
      * destruct B as (B1 & B2). split; auto.
        intros t n I E. apply in_app_or in I. destruct I as [I|[<-|[]]]; [now apply (B2 t)|].
        destruct Q as [Q|[_ Q]]; [|now apply Q]. destruct Q as [_ Q]. specialize (Q n E). lia.
    + destruct o as [b|]; cbn in B |- *.
      * destruct B as (B1 & B2 & B3 & B4). splits; auto; [apply in_or_app; now left|].
        intros t n I E. apply in_app_or in I. destruct I as [I|[<-|[]]]; [now apply (B4 t)|].
        destruct Q as [Q|[_ Q]]; [|specialize (Q n E); lia]. destruct Q as [_ Q]. specialize (Q n E). lia.
      * lia.
    + destruct o as [b|]; cbn in B |- *.
      * destruct B as (B1 & B2 & B3 & B4). splits; auto; [apply in_or_app; now left|].
        intros t n I E. apply in_app_or in I. destruct I as [I|[<-|[]]]; [now apply (B4 t)|].
        destruct Q as [Q|[_ Q]]; [|specialize (Q n E); lia]. destruct Q as [_ Q]. specialize (Q n E). lia.
      * destruct B as (B1 & B2). split; auto.
        intros t n I E. apply in_app_or in I. destruct I as [I|[<-|[]]]; [now apply (B2 t)|].
        destruct Q as [Q|[_ Q]]; [|now apply Q]. destruct Q as [_ Q]. specialize (Q n E). lia.
Qed.
Lemma scan_scopes_ok name : forall scopes seen best, best_ok name seen best ->
  exists best', scan_scopes name scopes best = Ok best' /\ best_ok name (seen ++ concat scopes) best'.
Proof.
  induction scopes as [|s r IH]; intros seen best B.
  - exists best. split; [reflexivity|]. cbn. now rewrite app_nil_r.
  - cbn [scan_scopes concat]. destruct (scan_symbols_ok name s seen best B) as (b1 & -> & B1). cbn [bind].
    rewrite app_assoc. apply IH. exact B1.
Qed.
