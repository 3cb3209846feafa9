From Verif Require Import Common Vec_Model Vec_Proofs String_Model String_Spec String_Proofs Regex_Model Regex_Spec.

Lemma matches_iff e L t : implements e L -> matches e t = true <-> exists i j, i <= j <= length t /\ L t i j.
Proof.
  intros H. specialize (H t). unfold matches. destruct (e t) as [[i j]|].
  - split; [intros _; exists i, j; tauto|reflexivity].
  - split; [discriminate|]. intros (i & j & A & B). now apply H in B.
Qed.

Lemma literal_occurs w t : (exists i j, i <= j <= length t /\ literal w t i j) <-> occurs w t.
Proof.
  unfold literal, occurs, piece. split.
  - intros (i & j & A & <-). exists (firstn i t), (skipn (j - i) (skipn i t)).
    now rewrite firstn_skipn, firstn_skipn.
  - intros (a & b & ->). exists (length a), (length a + length w). rewrite !app_length. split; [lia|].
    rewrite skipn_app, skipn_all, Nat.sub_diag. cbn.
    replace (length a + length w - length a) with (length w + 0) by lia.
    rewrite firstn_app_2. cbn. now rewrite app_nil_r.
Qed.

Lemma lit_matches e w t : implements e (literal w) -> matches e t = true <-> occurs w t.
Proof. intros H. now rewrite (matches_iff e _ t H), literal_occurs. Qed.
Lemma lit_matches_false e w t : implements e (literal w) -> ~ occurs w t -> matches e t = false.
Proof. intros H N. destruct (matches e t) eqn:E; [|reflexivity]. now apply (lit_matches e w t H) in E. Qed.

Lemma count_last e w : implements e (literal w) -> forall a b, w <> [] -> ~ occurs w (tl (w ++ b)) ->
  forall n, count_loop e (a ++ w ++ b) n = (n + Z.of_nat (length a) + 1)%Z.
Proof.
  intros H a b NE NO. induction a as [|c a IH]; intros n.
  - cbn [app length]. destruct w as [|c w]; [easy|]. change ((c :: w) ++ b) with (c :: w ++ b) in *.
    cbn [count_loop]. cbn [tl] in NO. rewrite (proj2 (lit_matches e (c :: w) (c :: w ++ b) H)) by now exists [], b.
    destruct (w ++ b) as [|d s] eqn:E; cbn [count_loop]; [lia|].
    rewrite (lit_matches_false _ _ _ H NO). lia.
  - change ((c :: a) ++ w ++ b) with (c :: (a ++ w ++ b)). cbn [count_loop].
    rewrite (proj2 (lit_matches e w (c :: a ++ w ++ b) H)) by now exists (c :: a), b.
    rewrite IH. cbn [length]. lia.
Qed.

Lemma skip_skip {A} : forall i j (t : list A), skipn i (skipn j t) = skipn (i + j) t.
Proof.
  intros i j. revert i. induction j as [|j IH]; intros i t; [now rewrite Nat.add_0_r|].
  destruct t as [|x t]; [now rewrite !skipn_nil|]. rewrite Nat.add_succ_r. cbn. apply IH.
Qed.
Lemma skipn_len_app {A} (a b : list A) : skipn (length a) (a ++ b) = b.
Proof. rewrite skipn_app, skipn_all, Nat.sub_diag. reflexivity. Qed.

(** After the last occurrence nothing is cut. *)
Lemma split_tail e t last : forall k pos, (forall i, pos <= i < pos + k -> matches e (skipn i t) = false) ->
  split_loop e t k last pos = if last <? length t then do s <- snew (skipn last t); Ok [s] else Ok [].
Proof.
  induction k as [|k IH]; intros pos H; cbn [split_loop]; [reflexivity|].
  rewrite (H pos) by lia. apply IH. intros i Hi. apply H. lia.
Qed.
Lemma split_head e t : forall n k pos, (forall i, pos <= i < pos + n -> matches e (skipn i t) = true) ->
  split_loop e t (n + k) pos pos = split_loop e t k (pos + n) (pos + n).
Proof.
  induction n as [|n IH]; intros k pos H; cbn [Nat.add split_loop]; [now rewrite Nat.add_0_r|].
  rewrite (H pos) by lia. rewrite Nat.ltb_irrefl. rewrite IH by (intros i Hi; apply H; lia).
  f_equal; lia.
Qed.

Lemma occurs_skipn w t i j : i <= j -> occurs w (skipn j t) -> occurs w (skipn i t).
Proof.
  intros L (a & b & E). exists (firstn (j - i) (skipn i t) ++ a), b.
  rewrite <- app_assoc, <- E. replace (skipn j t) with (skipn (j - i) (skipn i t)).
  - now rewrite firstn_skipn.
  - rewrite skip_skip. f_equal. lia.
Qed.

Lemma split_last e w a b : implements e (literal w) -> w <> [] -> ~ occurs w (tl (w ++ b)) ->
  split_loop e (a ++ w ++ b) (length (a ++ w ++ b)) 0 0 =
  if 0 <? length (tl (w ++ b)) then do s <- snew (tl (w ++ b)); Ok [s] else Ok [].
Proof.
  intros H NE NO. set (t := a ++ w ++ b).
  assert (SK : skipn (length a + 1) t = tl (w ++ b)).
  { replace (length a + 1) with (1 + length a) by lia. rewrite <- skip_skip. unfold t. rewrite skipn_len_app.
    now destruct (w ++ b). }
  assert (LT : length t = (length a + 1) + length (tl (w ++ b))).
  { unfold t. rewrite !app_length. destruct w; [easy|]. cbn. rewrite app_length. lia. }
  rewrite LT, split_head.
  - rewrite split_tail.
    + cbn [Nat.add]. rewrite SK, LT.
      destruct (length (tl (w ++ b))) eqn:E; [rewrite Nat.add_0_r, Nat.ltb_irrefl; reflexivity|].
      destruct (Nat.ltb_spec (length a + 1) (length a + 1 + S n)); [reflexivity|lia].
    + intros i Hi. cbn in Hi. apply (lit_matches_false _ _ _ H). intros O. apply NO. rewrite <- SK.
      apply (occurs_skipn w t (length a + 1) i); [lia|exact O].
  - intros i Hi. apply (proj2 (lit_matches e w _ H)). apply (occurs_skipn w t i (length a)); [lia|].
    unfold t. rewrite skipn_len_app. now exists [], b.
Qed.
