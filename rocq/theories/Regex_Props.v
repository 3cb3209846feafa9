(** Property C62: regular expressions. *)
From Verif Require Import Common Vec_Model Vec_Proofs Vec_Props String_Model String_Spec String_Proofs String_Props Url_Proofs
  Regex_Model Regex_Spec Regex_Proofs.

(** match tells whether the text contains a match. *)
Theorem C62_match :
  forall e lang t, implements e lang ->
  rmatches (Some e) t = true <-> exists i j, i <= j <= length t /\ lang t i j.
Proof. intros e L t H. exact (matches_iff e L t H). Qed.
Print Assumptions C62_match.

(** find returns a match if there is one: its bounds are within the text, it is the
    leftmost, and as_string is the piece of the text it covers. *)
Theorem C62_find :
  forall e lang t, implements e lang ->
  match find (Some e) t with
  | Some m => exists i j, i <= j <= length t /\ lang t i j /\
      (forall i' j', i' <= j' <= length t -> lang t i' j' -> i <= i') /\
      m_start m = Z.of_nat i /\ m_end m = Z.of_nat j /\ as_string m = Ok (piece t i j)
  | None => forall i j, i <= j <= length t -> ~ lang t i j
  end.
Proof.
  intros e L t H. specialize (H t). unfold find. destruct (e t) as [[i j]|]; [|exact H].
  destruct H as (A & B & C). exists i, j. unfold m_end, as_string, piece. cbn [m_start m_len m_text].
  splits; auto; try lia.
  replace ((0 <=? Z.of_nat i) && (0 <=? Z.of_nat j - Z.of_nat i) && (Z.of_nat i + (Z.of_nat j - Z.of_nat i) <=? Z.of_nat (length t)))%Z
    with true by (symmetry; rewrite !andb_true_iff, !Z.leb_le; lia).
  rewrite Nat2Z.id. now replace (Z.to_nat (Z.of_nat j - Z.of_nat i)) with (j - i) by lia.
Qed.
Print Assumptions C62_find.

(** find_at gives the text of the leftmost match of what follows the position, and none
    for a position outside the text; it counts the bounds from that position. *)
Theorem C62_find_at_partial :
  forall e lang t s, implements e lang ->
  match find_at (Some e) t s with
  | Some m => (0 <= s < Z.of_nat (length t))%Z /\ exists i j, Z.to_nat s <= i <= j /\ j <= length t /\
      lang (skipn (Z.to_nat s) t) (i - Z.to_nat s) (j - Z.to_nat s) /\
      m_start m = (Z.of_nat i - s)%Z /\ as_string m = Ok (piece t i j)
  | None => (0 <= s < Z.of_nat (length t))%Z ->
      forall i j, i <= j <= length (skipn (Z.to_nat s) t) -> ~ lang (skipn (Z.to_nat s) t) i j
  end.
Proof.
  intros e L t s H. unfold find_at. destruct (Z.ltb_spec s 0); cbn [orb]; [lia|].
  destruct (Z.leb_spec (Z.of_nat (length t)) s); [lia|].
  assert (F := C62_find e L (skipn (Z.to_nat s) t) H). destruct (find (Some e) (skipn (Z.to_nat s) t)) as [m|]; [|auto].
  split; [lia|]. destruct F as (i & j & A & B & _ & C & _ & D). exists (Z.to_nat s + i), (Z.to_nat s + j).
  rewrite skipn_length in A. splits; try lia.
  - now replace (Z.to_nat s + i - Z.to_nat s) with i by lia; replace (Z.to_nat s + j - Z.to_nat s) with j by lia.
  - rewrite D. unfold piece. rewrite skipn_skipn'. f_equal. f_equal. lia.
Qed.
Print Assumptions C62_find_at_partial.

(** match_at looks for a match in what follows the position. *)
Theorem C62_match_at :
  forall e lang t s, implements e lang ->
  match_at (Some e) t s = true <->
  (0 <= s <= Z.of_nat (length t))%Z /\
  exists i j, i <= j <= length (skipn (Z.to_nat s) t) /\ lang (skipn (Z.to_nat s) t) i j.
Proof.
  intros e L t s H. unfold match_at. destruct (Z.ltb_spec s 0); cbn [orb].
  { split; [discriminate|]. intros [? _]. lia. }
  destruct (Z.ltb_spec (Z.of_nat (length t)) s).
  { split; [discriminate|]. intros [? _]. lia. }
  rewrite (matches_iff e L _ H). split; [intros ?; split; [lia|auto]|tauto].
Qed.
Print Assumptions C62_match_at.

(** The start find_at reports is not a position in the text it was given. *)
Theorem C62_position_refuted :
  forall e w a b, implements e (literal w) -> w <> [] -> a <> [] ->
  exists m, find_at (Some e) (a ++ w ++ b) (Z.of_nat (length a)) = Some m /\ m_start m = 0%Z.
Proof.
  intros e w a b H NW NA. assert (F := C62_find_at_partial e _ (a ++ w ++ b) (Z.of_nat (length a)) H).
  assert (LB : (0 <= Z.of_nat (length a) < Z.of_nat (length (a ++ w ++ b)))%Z).
  { rewrite !app_length. destruct w; [easy|]. cbn [length]. lia. }
  assert (SK : skipn (Z.to_nat (Z.of_nat (length a))) (a ++ w ++ b) = w ++ b).
  { rewrite Nat2Z.id. apply skipn_len_app. }
  assert (Q := C62_find e _ (w ++ b) H).
  unfold find_at. rewrite SK. destruct (Z.ltb_spec (Z.of_nat (length a)) 0); [lia|]. cbn [orb].
  destruct (Z.leb_spec (Z.of_nat (length (a ++ w ++ b))) (Z.of_nat (length a))); [lia|].
  assert (W0 : literal w (w ++ b) 0 (length w)).
  { unfold literal, piece. rewrite skipn_O, Nat.sub_0_r, firstn_app, Nat.sub_diag, firstn_all. cbn. apply app_nil_r. }
  destruct (find (Some e) (w ++ b)) as [m|].
  - exists m. split; auto. destruct Q as (i & j & _ & _ & LE & E & _).
    specialize (LE 0 (length w) ltac:(rewrite app_length; lia) W0). lia.
  - exfalso. apply (Q 0 (length w)); [rewrite app_length; lia|exact W0].
Qed.
Print Assumptions C62_position_refuted.

(** match_full accepts any text that contains the pattern. *)
Theorem C62_full_refuted :
  forall e w a b, implements e (literal w) -> match_full (Some e) (a ++ w ++ b) = true.
Proof. intros e w a b H. apply (lit_matches e w _ H). now exists a, b. Qed.
Print Assumptions C62_full_refuted.

(** count is 0 exactly when no match starts before the end of the text... *)
Theorem C62_count_partial :
  forall e lang t, implements e lang -> t <> [] ->
  count (Some e) t = 0%Z <-> ~ exists i j, i <= j <= length t /\ lang t i j.
Proof.
  intros e L t H NE. unfold count. rewrite <- (matches_iff e L t H). destruct t as [|c t]; [easy|]. cbn [count_loop].
  destruct (matches e (c :: t)); [|split; [discriminate|reflexivity]].
  assert (P : forall s n, (1 <= n)%Z -> (1 <= count_loop e s n)%Z).
  { induction s as [|d s IH]; intros n Hn; cbn [count_loop]; [lia|].
    destruct (matches e (d :: s)); [apply IH|]; lia. }
  split; [|easy]. intros Q. specialize (P t (0 + 1)%Z). lia.
Qed.
Print Assumptions C62_count_partial.

(** ...but otherwise it counts the bytes up to the start of the last one: for a string w
    it returns 1 + the position of the last occurrence. *)
Theorem C62_count_refuted :
  forall e w a b, implements e (literal w) -> w <> [] -> ~ occurs w (tl (w ++ b)) ->
  count (Some e) (a ++ w ++ b) = (1 + Z.of_nat (length a))%Z.
Proof. intros e w a b H NE NO. unfold count. rewrite (count_last e w H a b NE NO). lia. Qed.
Print Assumptions C62_count_refuted.

(** split returns a text without a match whole, and so does an invalid pattern... *)
Theorem C62_split_partial :
  forall e lang t, implements e lang -> t <> [] -> ~ In 0%N t ->
  (forall s, s < length t -> forall i j, i <= j <= length (skipn s t) -> ~ lang (skipn s t) i j) ->
  exists s, split (Some e) t = Ok [s] /\ text s t.
Proof.
  intros e L t H NE Z0 NM. unfold split. rewrite split_tail.
  - destruct (snew_ok t) as (s & E & Hs). rewrite skipn_O, E. exists s.
    destruct t; [easy|]. split; [reflexivity|]. apply text_shold. rewrite cstr_id in Hs by now apply nonul_in. exact Hs.
  - intros i Hi. cbn in Hi. destruct (matches e (skipn i t)) eqn:M; [|reflexivity].
    apply (matches_iff e L _ H) in M as (x & y & A & B). now apply NM in B.
Qed.
Print Assumptions C62_split_partial.

(** ...but with a match, everything up to the first byte of the last match is lost. *)
Theorem C62_split_refuted :
  forall e w a b, implements e (literal w) -> w <> [] -> ~ occurs w (tl (w ++ b)) -> ~ In 0%N (w ++ b) ->
  tl (w ++ b) <> [] ->
  exists s, split (Some e) (a ++ w ++ b) = Ok [s] /\ text s (tl (w ++ b)).
Proof.
  intros e w a b H NE NO Z0 NT. unfold split. rewrite (split_last e w a b H NE NO).
  destruct (snew_ok (tl (w ++ b))) as (s & E & Hs). rewrite E. exists s.
  rewrite cstr_id in Hs by (apply nonul_in; intros I; apply Z0; destruct (w ++ b); [easy|now right]).
  destruct (tl (w ++ b)); [easy|]. split; [reflexivity|]. now apply text_shold.
Qed.
Print Assumptions C62_split_refuted.

(** An invalid pattern matches nothing. *)
Theorem C62_invalid :
  forall t s, ~ In 0%N t ->
  is_valid None = false /\ rmatches None t = false /\ match_at None t s = false /\ find None t = None /\
  find_at None t s = None /\ count None t = 0%Z /\ exists v, split None t = Ok [v] /\ text v t.
Proof.
  intros t s Z0. splits; try reflexivity.
  - unfold find_at. now destruct (_ || _).
  - unfold split. destruct (snew_ok t) as (v & E & Hv). rewrite E. exists v. split; [reflexivity|].
    apply text_shold. rewrite cstr_id in Hv by now apply nonul_in. exact Hv.
Qed.
Print Assumptions C62_invalid.

(** Hypotheses are met: the engine that searches for a plain string. *)
Fixpoint search (w t : bytes) : option nat :=
  if is_prefix w t then Some 0
  else match t with [] => None | _ :: t => option_map S (search w t) end.
Definition lit (w : bytes) : engine := fun t => option_map (fun i => (i, i + length w)) (search w t).

Lemma prefix_first w t : is_prefix w t = true <-> firstn (length w) t = w /\ length w <= length t.
Proof.
  revert t. induction w as [|c w IH]; intros [|d t]; cbn; split; try (intros; now (try split; try lia)).
  - intros E. apply andb_true_iff in E as [E1 E2]. apply N.eqb_eq in E1. apply IH in E2 as [E2 ?]. split; [now subst; rewrite E2|lia].
  - intros [E ?]. injection E as -> E. rewrite N.eqb_refl. apply IH. split; [auto|lia].
Qed.

Lemma search_spec w t : match search w t with
  | Some i => i + length w <= length t /\ piece t i (i + length w) = w /\
      forall i', i' + length w <= length t -> piece t i' (i' + length w) = w -> i <= i'
  | None => forall i, i + length w <= length t -> piece t i (i + length w) <> w
  end.
Proof.
  assert (P0 : forall t, is_prefix w t = true <-> length w <= length t /\ piece t 0 (0 + length w) = w).
  { intros s. rewrite prefix_first. unfold piece. rewrite skipn_O. cbn [Nat.add]. rewrite Nat.sub_0_r. tauto. }
  induction t as [|c t IH]; cbn [search].
  - destruct (is_prefix w []) eqn:E.
    + apply P0 in E as [A B]. splits; auto; lia.
    + intros i L Q. cbn in L. assert (i = 0) by lia. subst i. assert (is_prefix w [] = true); [|congruence].
      apply P0. split; [cbn; lia|exact Q].
  - destruct (is_prefix w (c :: t)) eqn:E.
    + apply P0 in E as [A B]. splits; auto; lia.
    + assert (SH : forall i, piece (c :: t) (S i) (S i + length w) = piece t i (i + length w)).
      { intros i. unfold piece. cbn [skipn]. f_equal. }
      destruct (search w t) as [i|]; cbn [option_map].
      * destruct IH as (A & B & C). splits; [cbn; lia|now rewrite SH|]. intros [|i'] L Q.
        { assert (is_prefix w (c :: t) = true) by (apply P0; split; [cbn in *; lia|exact Q]). congruence. }
        { rewrite SH in Q. cbn in L. specialize (C i' ltac:(lia) Q). lia. }
      * intros [|i] L Q.
        { assert (is_prefix w (c :: t) = true) by (apply P0; split; [cbn in *; lia|exact Q]). congruence. }
        { rewrite SH in Q. cbn in L. now apply (IH i ltac:(lia)). }
Qed.

Lemma lit_implements w : implements (lit w) (literal w).
Proof.
  intros t. assert (H := search_spec w t). unfold lit.
  assert (W : forall i j, i <= j <= length t -> literal w t i j -> j = i + length w).
  { intros i j L E. unfold literal, piece in E. apply (f_equal (@length N)) in E. rewrite firstn_length, skipn_length in E. lia. }
  destruct (search w t) as [i|]; cbn [option_map].
  - destruct H as (A & B & C). splits; [lia|lia|exact B|]. intros i' j' L E. assert (Q := W _ _ L E). subst j'.
    apply C; [lia|exact E].
  - intros i j L E. assert (Q := W _ _ L E). subst j. now apply (H i ltac:(lia)).
Qed.

(** "," in "k,a,b": count answers 4 where there are 2, split loses the first two fields. *)
Example C62_example :
  implements (lit (bs ",")) (literal (bs ",")) /\
  (bs "," <> [] /\ ~ occurs (bs ",") (tl (bs "," ++ bs "b")) /\ bs "k,a,b" = bs "k,a" ++ bs "," ++ bs "b") /\
  find (Some (lit (bs ","))) (bs "k,a,b") = Some (mkmatch (bs "k,a,b") 1 1) /\
  count (Some (lit (bs ","))) (bs "k,a,b") = 4%Z /\
  (do l <- split (Some (lit (bs ","))) (bs "k,a,b"); match l with [s] => cread (data s) | _ => UB end) = Ok (bs "b") /\
  match_full (Some (lit (bs ","))) (bs "k,a,b") = true.
Proof.
  split; [apply lit_implements|]. split.
  { splits; [discriminate| |reflexivity]. intros (x & y & E). cbn in E.
    destruct x as [|? [|? x]]; cbn in E; discriminate. }
  splits; (vm_compute; reflexivity).
Qed.
