From Verif Require Import Common Slice_Model Slice_Spec.
Local Open Scope Z_scope.

Lemma pow64 : 2 ^ 64 = 18446744073709551616. Proof. reflexivity. Qed.

Lemma nth_error_skipn' {A} (l : list A) n k : nth_error (skipn n l) k = nth_error l (n + k).
Proof. revert n. induction l as [|x l IH]; intros [|n]; cbn; auto. - now destruct k. Qed.
Lemma nth_error_firstn_lt {A} (l : list A) n k : (k < n)%nat -> nth_error (firstn n l) k = nth_error l k.
Proof. revert n k. induction l as [|x l IH]; intros [|n] [|k] H; cbn; auto; try lia. apply IH. lia. Qed.
Lemma skipn_skipn2 {A} (l : list A) n k : skipn n (skipn k l) = skipn (n + k) l.
Proof. revert k. induction l as [|x l IH]; intros k; [now rewrite !skipn_nil|]. destruct k; [now rewrite Nat.add_0_r|]. rewrite Nat.add_succ_r. cbn [skipn]. apply IH. Qed.
Lemma nth_error_ext {A} (l1 l2 : list A) : (forall k, nth_error l1 k = nth_error l2 k) -> l1 = l2.
Proof.
  revert l2. induction l1 as [|x l1 IH]; intros [|y l2] H; auto; try (specialize (H 0%nat); discriminate).
  pose proof (H 0%nat) as H0. injection H0 as ->. f_equal. apply IH. intros k. apply (H (S k)).
Qed.

Section P.
Variable T : Type.
Notation mem := (mem T). Notation Live := (Live T). Notation at_ := (at_ T). Notation load := (load T). Notation store := (store T). Notation only := (only T).

Lemma load_mid m b pre v post : nth_error m b = Some (Live (pre ++ v :: post)) -> load m (Some (b, Z.of_nat (length pre))) = Ok v.
Proof.
  intros E. unfold load. rewrite E, app_length. cbn [length].
  destruct (Z.ltb_spec (Z.of_nat (length pre)) 0); [lia|]. destruct (Z.leb_spec (Z.of_nat (length pre + S (length post))) (Z.of_nat (length pre))); [lia|].
  cbn [orb]. rewrite Nat2Z.id, nth_error_app2, Nat.sub_diag by lia. reflexivity.
Qed.
Lemma store_mid m b pre v post w : nth_error m b = Some (Live (pre ++ v :: post)) ->
  store m (Some (b, Z.of_nat (length pre))) w = Ok (upd m b (Live (pre ++ w :: post))).
Proof.
  intros E. unfold store. rewrite E, app_length. cbn [length].
  destruct (Z.ltb_spec (Z.of_nat (length pre)) 0); [lia|]. destruct (Z.leb_spec (Z.of_nat (length pre + S (length post))) (Z.of_nat (length pre))); [lia|].
  cbn [orb]. rewrite Nat2Z.id, upd_middle. reflexivity.
Qed.
Lemma nth_upd_same {A} (l : list A) b x y : nth_error l b = Some y -> nth_error (upd l b x) b = Some x.
Proof.
  intros E. rewrite nth_error_upd. rewrite Nat.eqb_refl.
  assert (b < length l)%nat by (apply nth_error_Some; congruence). destruct (Nat.ltb_spec b (length l)); [reflexivity|lia].
Qed.
Lemma nth_upd_other {A} (l : list A) b c x : b <> c -> nth_error (upd l b x) c = nth_error l c.
Proof. intros N. rewrite nth_error_upd. destruct (Nat.eqb_spec b c); [contradiction|]. destruct (Nat.eqb_spec c b); [congruence|reflexivity]. Qed.

Lemma load_store m p w m' : store m p w = Ok m' -> load m' p = Ok w /\ forall q, q <> p -> load m' q = load m q.
Proof.
  unfold store. destruct p as [[b i]|]; [|discriminate]. destruct (nth_error m b) as [[l|]|] eqn:E; try discriminate.
  destruct (Z.ltb_spec i 0) as [L|L]; [discriminate|]. destruct (Z.leb_spec (Z.of_nat (length l)) i) as [L2|L2]; [discriminate|]. cbn [orb].
  intros H. injection H as <-.
  assert (Hi : (Z.to_nat i < length l)%nat) by lia.
  split.
  - unfold load. rewrite (nth_upd_same m b _ _ E), length_upd.
    destruct (Z.ltb_spec i 0); [lia|]. destruct (Z.leb_spec (Z.of_nat (length l)) i); [lia|]. cbn [orb].
    destruct (nth_error l (Z.to_nat i)) as [y|] eqn:Y; [|apply nth_error_None in Y; lia].
    now rewrite (nth_upd_same l _ w y Y).
  - intros [[c j]|] N; [|reflexivity]. unfold load. destruct (Nat.eq_dec b c) as [->|D].
    + rewrite (nth_upd_same m c _ _ E), E, length_upd.
      destruct (Z.ltb_spec j 0); auto. destruct (Z.leb_spec (Z.of_nat (length l)) j); auto. cbn [orb].
      rewrite nth_upd_other; auto. intros X. apply N. f_equal. f_equal. lia.
    + now rewrite nth_upd_other.
Qed.

Lemma shift_shift p a b : shift (shift p a) b = shift p (a + b).
Proof. destruct p as [[c i]|]; auto. cbn. do 2 f_equal. lia. Qed.
Lemma shift0 p : shift p 0 = p.
Proof. destruct p as [[c i]|]; auto. cbn. do 2 f_equal. lia. Qed.
Lemma only_refl p m : only p 0 m m.
Proof. intros q _. reflexivity. Qed.
Lemma only_cons p n m m1 m2 w : store m p w = Ok m1 -> only (shift p 1) n m1 m2 -> only p (S n) m m2.
Proof.
  intros E O q N. rewrite O.
  - apply (load_store m p w m1 E). intros ->. apply N. exists 0%nat. split; [lia|]. now rewrite shift0.
  - intros (k & L & ->). apply N. exists (S k). split; [lia|]. rewrite shift_shift. f_equal. lia.
Qed.

(** ** Slices *)
Lemma at_load m p vs k v : at_ m p vs -> nth_error vs k = Some v -> load m (shift p (Z.of_nat k)) = Ok v.
Proof.
  intros (b & pre & post & -> & E) H. cbn [shift]. apply nth_error_split in H as (x & y & -> & Lx).
  replace (Z.of_nat (length pre) + Z.of_nat k) with (Z.of_nat (length (pre ++ x))) by (rewrite app_length; lia).
  eapply load_mid with (post := y ++ post). rewrite E. f_equal. f_equal. now rewrite <- !app_assoc.
Qed.
Lemma at_store m p vs k v : at_ m p vs -> (k < length vs)%nat -> exists m', store m (shift p (Z.of_nat k)) v = Ok m' /\ at_ m' p (upd vs k v).
Proof.
  intros (b & pre & post & -> & E) H. destruct (nth_error vs k) as [y|] eqn:Y; [|apply nth_error_None in Y; lia].
  apply nth_error_split in Y as (x & z & -> & Lx). cbn [shift].
  replace (Z.of_nat (length pre) + Z.of_nat k) with (Z.of_nat (length (pre ++ x))) by (rewrite app_length; lia).
  eexists. split.
  - eapply store_mid with (v := y) (post := z ++ post). rewrite E. f_equal. f_equal. now rewrite <- !app_assoc.
  - rewrite (upd_middle' x z k y v Lx). exists b, pre, post. split; auto. rewrite (nth_upd_same m b _ _ E). f_equal. f_equal. now rewrite <- !app_assoc.
Qed.
Lemma collect_ok vs m p fuel : at_ m p vs -> Z.of_nat (length vs) < 2 ^ 64 -> forall k, (k <= length vs)%nat -> (length vs - k < fuel)%nat ->
  collect T fuel m (Iter p (Z.of_nat (length vs)) (Z.of_nat k)) = Ok (skipn k vs).
Proof.
  intros A L. induction fuel as [|fuel IH]; intros k Hk Hf; [lia|].
  cbn [collect]. unfold next. cbn [it_idx it_count it_data].
  destruct (Z.ltb_spec (Z.of_nat k) (Z.of_nat (length vs))) as [H|H].
  - destruct (nth_error vs k) as [v|] eqn:E; [|apply nth_error_None in E; lia].
    rewrite (at_load m p vs k v A E). cbn [bind].
    rewrite Z.mod_small by lia. replace (Z.of_nat k + 1) with (Z.of_nat (S k)) by lia.
    rewrite IH by lia. cbn [bind]. f_equal. apply nth_error_split in E as (x & y & -> & <-).
    rewrite !skipn_app. rewrite (skipn_all2 (n := S (length x))) by lia. rewrite (skipn_all2 (n := length x)) by lia. rewrite Nat.sub_diag. replace (S (length x) - length x)%nat with 1%nat by lia. reflexivity.
  - cbn [bind]. f_equal. symmetry. apply skipn_all2. lia.
Qed.
Lemma get_ok m p vs idx : at_ m p vs -> 0 <= idx -> get T m (new p (Z.of_nat (length vs))) idx = Ok (nth_error vs (Z.to_nat idx)).
Proof.
  intros A H. unfold get, new. cbn [s_len s_data]. destruct (Z.leb_spec (Z.of_nat (length vs)) idx) as [L|L].
  - f_equal. symmetry. apply nth_error_None. lia.
  - destruct (nth_error vs (Z.to_nat idx)) as [v|] eqn:E; [|apply nth_error_None in E; lia].
    rewrite <- (Z2Nat.id idx) by lia. rewrite (at_load m p vs _ v A E). reflexivity.
Qed.

(** ** Memory *)
Lemma swap_ok m a b x y : load m a = Ok x -> load m b = Ok y -> exists m', swap T m a b = Ok m' /\ load m' a = Ok y /\ load m' b = Ok x /\
  forall q, q <> a -> q <> b -> load m' q = load m q.
Proof.
  assert (St : forall m p v w, load m p = Ok v -> exists m', store m p w = Ok m').
  { intros m0 p v w. unfold load, store. destruct p as [[c i]|]; [|discriminate]. destruct (nth_error m0 c) as [[l|]|]; try discriminate.
    destruct ((i <? 0) || _); [discriminate|eauto]. }
  intros A B. unfold swap. rewrite A, B. cbn [bind]. destruct (St m a x y A) as [m1 E1]. rewrite E1. cbn [bind].
  destruct (load_store m a y m1 E1) as [L1 O1].
  assert (P : {a = b} + {a <> b}) by (repeat decide equality).
  destruct P as [<-|D].
  - rewrite A in B. injection B as <-. destruct (St m1 a x x L1) as [m2 E2]. exists m2. split; auto.
    destruct (load_store m1 a x m2 E2) as [L2 O2]. split; auto. split; auto. intros q H _. rewrite O2, O1; auto.
  - assert (B1 : load m1 b = Ok y) by (rewrite O1; auto). destruct (St m1 b y x B1) as [m2 E2]. exists m2. split; auto.
    destruct (load_store m1 b x m2 E2) as [L2 O2]. split; [rewrite O2; auto|]. split; auto. intros q H1 H2. rewrite O2, O1; auto.
Qed.
Lemma fill_ok zero vs : forall m b pre post, nth_error m b = Some (Live (pre ++ vs ++ post)) ->
  exists m', fill T zero (length vs) m (Some (b, Z.of_nat (length pre))) = Ok m' /\
    nth_error m' b = Some (Live (pre ++ repeat zero (length vs) ++ post)) /\ only (Some (b, Z.of_nat (length pre))) (length vs) m m'.
Proof.
  induction vs as [|v vs IH]; intros m b pre post E; cbn [fill length].
  - exists m. split; auto. split; auto. apply only_refl.
  - cbn [app] in E. rewrite (store_mid m b pre v (vs ++ post) zero E). cbn [bind].
    assert (E' : nth_error (upd m b (Live (pre ++ zero :: vs ++ post))) b = Some (Live ((pre ++ [zero]) ++ vs ++ post))).
    { rewrite (nth_upd_same m b _ _ E). f_equal. f_equal. now rewrite <- app_assoc. }
    destruct (IH _ b _ _ E') as (m' & F & A & O).
    replace (Z.of_nat (length (pre ++ [zero]))) with (Z.of_nat (length pre) + 1) in * by (rewrite app_length; cbn [length]; lia).
    exists m'. split; [exact F|]. split.
    + rewrite A. f_equal. f_equal. now rewrite <- app_assoc.
    + eapply only_cons; [apply (store_mid m b pre v (vs ++ post) zero E)|exact O].
Qed.
Lemma zero_ok zero sz m p vs : 0 < sz -> sz * Z.of_nat (length vs) < 2 ^ 64 -> at_ m p vs ->
  exists m', mem_zero T zero sz m p (Z.of_nat (length vs)) = Ok m' /\ at_ m' p (repeat zero (length vs)) /\ only p (length vs) m m'.
Proof.
  intros S L (b & pre & post & -> & E). unfold mem_zero. rewrite Z.mod_small by nia.
  rewrite Z.mul_comm, Z.div_mul, Nat2Z.id by lia.
  destruct (fill_ok zero vs m b pre post E) as (m' & F & A & O). exists m'. split; auto. split; auto. exists b, pre, post. auto.
Qed.

Lemma copy_ok ss : forall m d ds s, length ds = length ss -> at_ m d ds -> at_ m s ss ->
  (forall k j, (k < length ss)%nat -> (j < length ss)%nat -> shift d (Z.of_nat k) <> shift s (Z.of_nat j)) ->
  exists m', copy T (length ss) m d s = Ok m' /\ (forall k v, nth_error ss k = Some v -> load m' (shift d (Z.of_nat k)) = Ok v) /\ only d (length ss) m m' /\
    (exists b pre post, d = Some (b, Z.of_nat (length pre)) /\ nth_error m' b = Some (Live (pre ++ ss ++ post))).
Proof.
  induction ss as [|v ss IH]; intros m d ds s Ld A B D.
  - exists m. cbn [copy length]. split; auto. split; [intros [|k] v X; discriminate|]. split; [apply only_refl|].
    destruct ds; [|discriminate]. exact A.
  - destruct ds as [|w ds]; [discriminate|]. cbn [copy length].
    pose proof (at_load m s (v :: ss) 0 v B eq_refl) as L0. change (Z.of_nat 0) with 0 in L0. rewrite shift0 in L0. rewrite L0. cbn [bind].
    destruct A as (b & pre & post & -> & E). pose proof (store_mid m b pre w (ds ++ post) v E) as S0. rewrite S0. cbn [bind].
    set (m1 := upd m b (Live (pre ++ v :: ds ++ post))) in *.
    assert (E1 : nth_error m1 b = Some (Live ((pre ++ [v]) ++ ds ++ post))).
    { unfold m1. rewrite (nth_upd_same m b _ _ E). f_equal. f_equal. now rewrite <- app_assoc. }
    assert (A1 : at_ m1 (shift (Some (b, Z.of_nat (length pre))) 1) ds).
    { exists b, (pre ++ [v]), post. split; auto. cbn [shift]. do 2 f_equal. rewrite app_length. cbn [length]. lia. }
    assert (B1 : at_ m1 (shift s 1) ss).
    { destruct B as (c & pre' & post' & -> & E').
      destruct (Nat.eq_dec b c) as [<-|N].
      - rewrite E in E'. injection E' as E'.
        (* same block, the written place lies outside the source *)
        assert (Out : (length pre < length pre' \/ length pre' + length ss < length pre)%nat).
        { destruct (Nat.lt_ge_cases (length pre) (length pre')) as [|G1]; auto. right.
          destruct (Nat.lt_ge_cases (length pre' + length ss) (length pre)) as [|G2]; auto. exfalso.
          apply (D 0%nat (length pre - length pre')%nat ltac:(cbn; lia) ltac:(cbn [length]; lia)). cbn [shift]. do 2 f_equal. lia. }
        exists b, (upd pre' (length pre) v ++ [v]), (if (length pre <? length pre')%nat then post' else upd post' (length pre - length pre' - S (length ss)) v).
        assert (Lp : length (upd pre' (length pre) v) = length pre') by apply length_upd.
        split; [cbn [shift]; rewrite app_length; cbn [length]; rewrite Lp; do 2 f_equal; lia|].
        unfold m1. rewrite (nth_upd_same m b _ _ E). do 2 f_equal.
        assert (Q : pre ++ v :: ds ++ post = upd (pre ++ w :: ds ++ post) (length pre) v) by (symmetry; apply upd_middle).
        rewrite Q. cbn [app] in E'. rewrite E'. destruct (Nat.ltb_spec (length pre) (length pre')) as [G|G].
        + rewrite upd_app_l by lia. now rewrite <- app_assoc.
        + destruct Out as [Out|Out]; [lia|].
          change (v :: ss ++ post') with ((v :: ss) ++ post').
          replace (pre' ++ (v :: ss) ++ post') with ((pre' ++ (v :: ss)) ++ post') by (rewrite <- app_assoc; reflexivity).
          rewrite upd_app_r by (rewrite app_length; cbn [length]; lia).
          replace (upd pre' (length pre) v) with pre'.
          2:{ clear -G. revert G. generalize (length pre). induction pre' as [|x l IH]; intros n G; [destruct n; reflexivity|].
              destruct n; cbn [length] in G; [lia|]. cbn [upd]. rewrite <- IH by lia. reflexivity. }
          rewrite app_length. cbn [length]. rewrite <- !app_assoc. cbn [app]. do 4 f_equal. lia.
      - exists c, (pre' ++ [v]), post'. split; [cbn [shift]; rewrite app_length; cbn [length]; do 2 f_equal; lia|].
        unfold m1. rewrite nth_upd_other by auto. rewrite E'. do 2 f_equal. cbn [app]. now rewrite <- app_assoc. }
    destruct (IH m1 (shift (Some (b, Z.of_nat (length pre))) 1) ds (shift s 1) ltac:(cbn in Ld; lia) A1 B1) as (m' & C & R & O & (b2 & pre2 & post2 & P2 & E2)).
    { intros k j Hk Hj. rewrite !shift_shift. replace (1 + Z.of_nat k) with (Z.of_nat (S k)) by lia. replace (1 + Z.of_nat j) with (Z.of_nat (S j)) by lia.
      apply D; cbn [length]; lia. }
    exists m'. split; [exact C|].
    assert (R0 : load m' (Some (b, Z.of_nat (length pre))) = Ok v).
    { rewrite O.
      - apply (load_store m _ v m1 S0).
      - intros (k & _ & X). cbn [shift] in X. injection X as X. lia. }
    split; [|split].
    + intros [|k] u X.
      * injection X as <-. change (Z.of_nat 0) with 0. now rewrite shift0.
      * apply R in X. rewrite shift_shift in X. now replace (1 + Z.of_nat k) with (Z.of_nat (S k)) in X by lia.
    + eapply only_cons; eauto.
    + cbn [shift] in P2. injection P2 as <- P2.
      assert (Pn : exists pre3 u, pre2 = pre3 ++ [u]).
      { destruct pre2 as [|u pre2] using rev_ind; [cbn in P2; lia|eauto]. }
      destruct Pn as (pre3 & u & ->). rewrite app_length in P2. cbn [length] in P2.
      exists b, pre3, post2. split; [do 2 f_equal; lia|]. rewrite E2. do 2 f_equal. rewrite <- app_assoc. cbn [app]. do 2 f_equal.
      assert (X : load m' (Some (b, Z.of_nat (length pre3))) = Ok u).
      { apply (load_mid m' b pre3 u (ss ++ post2)). rewrite E2. do 2 f_equal. now rewrite <- app_assoc. }
      replace (length pre3) with (length pre) in X by lia. congruence.
Qed.
Lemma store_shape m p w m' : store m p w = Ok m' -> forall c l, nth_error m c = Some (Live l) -> exists l', nth_error m' c = Some (Live l') /\ length l' = length l.
Proof.
  unfold store. destruct p as [[b i]|]; [|discriminate]. destruct (nth_error m b) as [[l0|]|] eqn:E; try discriminate.
  destruct ((i <? 0) || _); [discriminate|]. intros H. injection H as <-. intros c l C. destruct (Nat.eq_dec b c) as [<-|N].
  - rewrite E in C. injection C as ->. eexists. split; [apply (nth_upd_same m b _ _ E)|apply length_upd].
  - rewrite nth_upd_other by auto. eauto.
Qed.
Lemma copy_shape n : forall m d s m', copy T n m d s = Ok m' -> forall c l, nth_error m c = Some (Live l) -> exists l', nth_error m' c = Some (Live l') /\ length l' = length l.
Proof.
  induction n as [|n IH]; intros m d s m'; cbn [copy]; [intros H; injection H as <-; eauto|].
  intros H c l C. apply bind_Ok in H as (v & _ & H). apply bind_Ok in H as (m1 & S1 & H).
  destruct (store_shape _ _ _ _ S1 c l C) as (l1 & C1 & L1). destruct (IH _ _ _ _ H c l1 C1) as (l2 & C2 & L2). exists l2. split; congruence.
Qed.
Lemma at_loads m c pre vs post l' : nth_error m c = Some (Live l') -> length l' = length (pre ++ vs ++ post) ->
  (forall k v, nth_error vs k = Some v -> load m (Some (c, Z.of_nat (length pre + k))) = Ok v) -> at_ m (Some (c, Z.of_nat (length pre))) vs.
Proof.
  intros E L H. exists c, (firstn (length pre) l'), (skipn (length pre + length vs) l').
  assert (Lf : length (firstn (length pre) l') = length pre) by (rewrite firstn_length; rewrite !app_length in L; lia).
  split; [now rewrite Lf|]. rewrite E. do 2 f_equal. rewrite <- (firstn_skipn (length pre) l') at 1. f_equal.
  rewrite <- (firstn_skipn (length vs) (skipn (length pre) l')) at 1. f_equal.
  - apply nth_error_ext. intros k. destruct (nth_error vs k) as [v|] eqn:V.
    + specialize (H k v V). unfold load in H. rewrite E in H. destruct (_ || _) in H; [discriminate|]. rewrite Nat2Z.id in H.
      assert (K : (k < length vs)%nat) by (apply nth_error_Some; congruence).
      rewrite nth_error_firstn_lt by auto. rewrite nth_error_skipn'. destruct (nth_error l' (length pre + k)); congruence.
    + apply nth_error_None in V. apply nth_error_None. rewrite firstn_length. lia.
  - rewrite skipn_skipn2. f_equal. lia.
Qed.
Lemma at_same m m' n d s s' ss : at_ m s ss -> (forall k, (k < length ss)%nat -> load m' (shift s (Z.of_nat k)) = load m (shift s (Z.of_nat k))) ->
  copy T n m d s' = Ok m' -> at_ m' s ss.
Proof.
  intros A H C. pose proof A as (c & pre & post & -> & E). destruct (copy_shape n m d s' m' C c _ E) as (l' & E' & L).
  apply (at_loads m' c pre ss post l' E' L). intros k v V. assert (K : (k < length ss)%nat) by (apply nth_error_Some; congruence).
  specialize (H k K). rewrite (at_load m _ ss k v A V) in H. cbn [shift] in H. now replace (Z.of_nat (length pre + k)) with (Z.of_nat (length pre) + Z.of_nat k) by lia.
Qed.
Lemma alloc_ok sz m n junk : 0 < sz -> 0 <= n -> sz * n < 2 ^ 64 ->
  exists m' p vs, alloc_n T sz m n junk = (m', p) /\ at_ m' p vs /\ Z.of_nat (length vs) = n /\ forall q, load m q <> UB -> load m' q = load m q.
Proof.
  intros S N L. unfold alloc_n. rewrite Z.mod_small by nia. rewrite Z.mul_comm, Z.div_mul by lia.
  do 3 eexists. split; [reflexivity|]. split.
  - exists (length m), [], []. split; [reflexivity|]. rewrite nth_error_app2, Nat.sub_diag by lia. cbn [nth_error app]. rewrite app_nil_r. reflexivity.
  - split; [rewrite map_length, seq_length; lia|]. intros [[b i]|] H; auto. unfold load in *.
    destruct (nth_error m b) as [x|] eqn:E; [|congruence]. rewrite nth_error_app1, E; auto. apply nth_error_Some. congruence.
Qed.
Lemma alloc_short sz m n junk v : 0 < sz -> 0 <= n < 2 ^ 64 -> 2 ^ 64 <= sz * n ->
  let '(m', p) := alloc_n T sz m n junk in store m' (shift p (n - 1)) v = UB.
Proof.
  intros S N L. unfold alloc_n. cbn [shift]. unfold store. rewrite nth_error_app2, Nat.sub_diag by lia. cbn [nth_error].
  rewrite map_length, seq_length.
  assert (B : (sz * n) mod 2 ^ 64 <= sz * n - 2 ^ 64).
  { rewrite Z.mod_eq by (rewrite pow64; lia). assert (1 <= sz * n / 2 ^ 64) by (apply Z.div_le_lower_bound; rewrite ?pow64 in *; lia). rewrite pow64 in *. lia. }
  assert (M : 0 <= (sz * n) mod 2 ^ 64) by (apply Z.mod_pos_bound; rewrite pow64; lia).
  assert (Q : (sz * n) mod 2 ^ 64 / sz < n).
  { apply Z.div_lt_upper_bound; auto. rewrite pow64 in *. lia. }
  pose proof (Z.div_pos _ sz M S). rewrite Z2Nat.id by auto.
  destruct (Z.leb_spec ((sz * n) mod 2 ^ 64 / sz) (0 + (n - 1))); [|lia]. now rewrite orb_true_r.
Qed.
End P.
