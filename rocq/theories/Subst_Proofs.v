From Verif Require Import Common Subst_Model Subst_Spec.
Local Open Scope nat_scope.

Lemma is_ident_spec c : is_ident c = true <-> word_char c.
Proof. unfold is_ident, word_char. rewrite !Bool.orb_true_iff, !Bool.andb_true_iff, !N.leb_le, N.eqb_eq. lia. Qed.
Lemma not_ident c : ~ word_char c -> is_ident c = false.
Proof. intros H. destruct (is_ident c) eqn:E; [|reflexivity]. apply is_ident_spec in E. contradiction. Qed.

(** * The buffer is exactly large enough *)
Lemma write_length old new : old <> [] -> forall s skip prev ins, skip <= length s ->
  (Z.of_nat (length (write old new skip prev ins s)) + Z.of_nat skip =
   Z.of_nat (length s) + Z.of_nat (count old skip prev ins s) * (Z.of_nat (length new) - Z.of_nat (length old)))%Z.
Proof.
  intros NE. induction s as [|c s IH]; intros skip prev ins L.
  - cbn in *. lia.
  - destruct skip as [|k]; cbn [write count].
    + destruct (negb (if toggles prev c then negb ins else ins) && matches old prev (c :: s)) eqn:M.
      * apply Bool.andb_true_iff in M. destruct M as [_ M]. unfold matches in M. apply Bool.andb_true_iff in M. destruct M as [M _].
        apply Bool.andb_true_iff in M. destruct M as [M _]. apply is_prefix_spec in M. destruct M as [r M].
        apply (f_equal (@length N)) in M. rewrite app_length in M. cbn [length] in M.
        destruct old as [|o old]; [congruence|]. cbn [length] in *.
        rewrite app_length. specialize (IH (S (length old) - 1) (Some c) (if toggles prev c then negb ins else ins)).
        rewrite Nat.sub_succ, Nat.sub_0_r in *. specialize (IH ltac:(lia)). lia.
      * cbn [length]. specialize (IH 0 (Some c) (if toggles prev c then negb ins else ins) ltac:(lia)). lia.
    + cbn [length] in *. specialize (IH k (Some c) ins ltac:(lia)). lia.
Qed.
Lemma replace_one_ok src old new : old <> [] -> replace_one src old new = Ok (write old new 0 None false src).
Proof.
  intros NE. unfold replace_one.
  replace (match old with [] => Fuel | _ :: _ => _ end) with
    (let capacity := (Z.of_nat (length src) + Z.of_nat (count old 0 None false src) * (Z.of_nat (length new) - Z.of_nat (length old)) + 1)%Z in
     if (Z.of_nat (length (write old new 0 None false src)) + 1 <=? capacity)%Z then Ok (write old new 0 None false src) else UB)
    by (destruct old; [congruence|reflexivity]). cbv zeta.
  pose proof (write_length old new NE src 0 None false ltac:(lia)) as W.
  destruct (Z.leb_spec (Z.of_nat (length (write old new 0 None false src)) + 1)
    (Z.of_nat (length src) + Z.of_nat (count old 0 None false src) * (Z.of_nat (length new) - Z.of_nat (length old)) + 1)); [reflexivity|lia].
Qed.

(** * What is written *)
Section W.
Variables old new : bytes.
Hypothesis WO : word old.
Notation wr := (write old new).
Definition head_ident (s : bytes) : bool := match s with c :: _ => is_ident c | [] => false end.

Lemma no_toggle prev c : c <> 34%N -> toggles prev c = false.
Proof. intros H. unfold toggles, quote. destruct (N.eqb_spec c 34); [contradiction|reflexivity]. Qed.
Lemma matches_head prev c s : is_ident c = false -> matches old prev (c :: s) = false.
Proof.
  intros H. unfold matches. destruct WO as [NE F]. destruct old as [|o l]; [congruence|]. cbn [is_prefix].
  destruct (N.eqb_spec o c) as [->|_]; [|reflexivity]. inversion F; subst. apply is_ident_spec in H2. congruence.
Qed.
Lemma matches_prev p s : is_ident p = true -> matches old (Some p) s = false.
Proof. intros H. unfold matches. cbn [is_ident_opt]. rewrite H. now rewrite Bool.andb_false_r. Qed.
(** at the start of a word that is followed by something else *)
Lemma matches_word prev w rest : word w -> is_ident_opt prev = false -> head_ident rest = false ->
  matches old prev (w ++ rest) = beq_bytes w old.
Proof.
  intros [NW FW] P R. unfold matches. rewrite P. cbn [negb]. rewrite Bool.andb_true_r.
  destruct (beq_bytes_spec w old) as [->|N].
  - rewrite (proj2 (is_prefix_spec _ _)) by (now eexists). cbn [andb].
    rewrite nth_error_app2, Nat.sub_diag by lia. destruct rest as [|c r]; [reflexivity|]. cbn in *. now rewrite R.
  - destruct (is_prefix old (w ++ rest)) eqn:E; [|reflexivity]. apply is_prefix_spec in E. destruct E as [r E]. cbn [andb].
    destruct WO as [_ FO].
    assert (C : (exists t, t <> [] /\ w = old ++ t) \/ w = old \/ (exists t, t <> [] /\ old = w ++ t)).
    { clear -E. revert w E. generalize old. induction old0 as [|o l IH]; intros w E.
      - destruct w as [|x w]; [right; now left|]. left. now exists (x :: w).
      - destruct w as [|x w]; [right; right; now exists (o :: l)|]. cbn in E. injection E as -> E.
        destruct (IH w E) as [(t & T & ->)|[->|(t & T & ->)]]; [left; now exists t|right; now left|right; right; now exists t]. }
    destruct C as [(t & T & ->)|[C|(t & T & C)]]; [|congruence|].
    + destruct t as [|x t]; [congruence|]. rewrite <- app_assoc, nth_error_app2, Nat.sub_diag by lia. cbn.
      apply Forall_app in FW. destruct FW as [_ FW]. inversion FW; subst. apply is_ident_spec in H1. now rewrite H1.
    + exfalso. rewrite C, <- app_assoc in E. apply app_inv_head in E. destruct t as [|x t]; [congruence|]. subst rest.
      cbn in R. rewrite C in FO. apply Forall_app in FO. destruct FO as [_ FO]. inversion FO; subst. apply is_ident_spec in H1. congruence.
Qed.
Lemma word_not_quote c : word_char c -> c <> 34%N.
Proof. unfold word_char. lia. Qed.
(** inside a word nothing is replaced *)
Lemma write_in_word : forall w p rest, Forall word_char w -> is_ident p = true ->
  exists q, is_ident q = true /\ wr 0 (Some p) false (w ++ rest) = w ++ wr 0 (Some q) false rest.
Proof.
  induction w as [|c w IH]; intros p rest F P; [now exists p|]. inversion F; subst. cbn [app write].
  rewrite no_toggle by now apply word_not_quote. cbn [negb andb].
  change (c :: w ++ rest) with ((c :: w) ++ rest). rewrite matches_prev by assumption.
  destruct (IH c rest H2) as (q & Q & E); [now apply is_ident_spec|]. exists q. split; [exact Q|]. now rewrite E.
Qed.
(** a replaced word is skipped *)
Lemma write_skip : forall w p rest, exists q, wr (length w) p false (w ++ rest) = wr 0 q false rest /\
  (w <> [] -> q = Some (last w 0%N)) /\ (w = [] -> q = p).
Proof.
  induction w as [|c w IH]; intros p rest; [exists p; repeat split; congruence|]. cbn [length app write].
  destruct (IH (Some c) rest) as (q & E & A & B). exists q. split; [exact E|]. split; [|congruence]. intros _.
  destruct w as [|d w]; [now apply B|]. rewrite A by congruence. reflexivity.
Qed.
Lemma last_in {A} (l : list A) d : l <> [] -> In (last l d) l.
Proof. induction l as [|a l IH]; [congruence|]. intros _. destruct l as [|b l]; [now left|]. right. now apply IH. Qed.
Lemma write_word w prev rest : word w -> is_ident_opt prev = false -> head_ident rest = false ->
  exists q, is_ident q = true /\ wr 0 prev false (w ++ rest) = (if beq_bytes w old then new else w) ++ wr 0 (Some q) false rest.
Proof.
  intros W P R. pose proof (matches_word prev w rest W P R) as M. pose proof W as [NW FW].
  destruct w as [|c w]; [congruence|]. inversion FW; subst. cbn [app write] in *.
  rewrite no_toggle by now apply word_not_quote. rewrite M. cbn [negb andb].
  destruct (beq_bytes_spec (c :: w) old) as [E|N].
  - assert (L : length old - 1 = length w) by (rewrite <- E; cbn [length]; lia). rewrite L.
    destruct (write_skip w (Some c) rest) as (q & Q & A & B). rewrite Q.
    exists (last (c :: w) 0%N). split.
    + apply is_ident_spec. rewrite Forall_forall in FW. apply FW. apply last_in. congruence.
    + f_equal. f_equal. destruct w as [|d w]; [now apply B|]. rewrite A by congruence. reflexivity.
  - destruct (write_in_word w c rest H2) as (q & Q & E); [now apply is_ident_spec|]. exists q. split; [exact Q|]. now rewrite E.
Qed.

(** a string literal is copied *)
Lemma in_string_step c p s : c <> 34%N \/ p = 92%N -> wr 0 (Some p) true (c :: s) = c :: wr 0 (Some c) true s.
Proof.
  intros H. cbn [write]. replace (toggles (Some p) c) with false; [reflexivity|].
  unfold toggles, quote, backslash. destruct H as [H| ->]; [destruct (N.eqb_spec c 34); [contradiction|reflexivity]|].
  cbn. now rewrite Bool.andb_false_r.
Qed.
Lemma write_units : forall l p rest, Forall unit_ok l -> ~ (exists l', l = l' ++ [Esc 92%N]) ->
  (l = [] -> p <> 92%N) ->
  exists q, wr 0 (Some p) true (flat_map show_unit l ++ 34%N :: rest) = flat_map show_unit l ++ 34%N :: wr 0 (Some q) false rest /\ q = 34%N.
Proof.
  induction l as [|u l IH]; intros p rest F NB P.
  - exists 34%N. split; [|reflexivity]. cbn [flat_map app write]. unfold toggles, quote, backslash.
    destruct (N.eqb_spec p 92); [exfalso; now apply P|]. cbn [N.eqb Pos.eqb negb andb].
    rewrite matches_head by reflexivity. reflexivity.
  - inversion F as [|? ? U F']; subst. cbn [flat_map].
    assert (NB' : ~ (exists l', l = l' ++ [Esc 92%N])) by (intros [l' ->]; apply NB; now exists (u :: l')).
    destruct u as [c|c]; cbn [show_unit app] in *.
    + destruct U as [U1 U2]. rewrite in_string_step by now left.
      destruct (IH c rest F' NB' ltac:(auto)) as (q & E & Q). exists q. split; [|exact Q]. now rewrite E.
    + rewrite in_string_step by (left; discriminate). rewrite in_string_step by now right.
      destruct (IH c rest F' NB') as (q & E & Q).
      * intros ->. intros ->. apply NB. now exists [].
      * exists q. split; [|exact Q]. now rewrite E.
Qed.
Lemma write_str l prev rest : Forall unit_ok l -> ~ (exists l', l = l' ++ [Esc 92%N]) -> prev <> Some 92%N ->
  wr 0 prev false (show (Str l) ++ rest) = show (Str l) ++ wr 0 (Some 34%N) false rest.
Proof.
  intros F NB P. cbn [show app write].
  assert (T : negb match prev with Some p => (p =? 92)%N | None => false end = true).
  { destruct prev as [p|]; [|reflexivity]. destruct (N.eqb_spec p 92) as [->|]; [congruence|reflexivity]. }
  assert (E : toggles prev 34 = true) by (unfold toggles, quote, backslash; cbn [N.eqb Pos.eqb andb]; exact T).
  rewrite E. cbn [negb andb].
  destruct (write_units l 34%N rest F NB ltac:(discriminate)) as (q & W & ->).
  rewrite <- !app_assoc. cbn [app]. now rewrite W.
Qed.
Lemma write_sym c prev rest : ~ word_char c -> c <> 34%N -> wr 0 prev false ([c] ++ rest) = c :: wr 0 (Some c) false rest.
Proof.
  intros W Q. cbn [app write]. rewrite no_toggle by assumption. rewrite matches_head by now apply not_ident. reflexivity.
Qed.

(** the next item does not start with a word character unless it is a word *)
Lemma head_items l : Forall item_ok l -> (forall w l', l <> Word w :: l') -> head_ident (flat_map show l) = false.
Proof.
  intros F N. destruct l as [|i l]; [reflexivity|]. inversion F; subst. destruct i as [w|u|c]; [exfalso; eapply N; eauto|reflexivity|].
  cbn. apply not_ident. now destruct H1.
Qed.
Lemma write_items : forall l prev, Forall item_ok l -> maximal l -> Forall clean_str l -> no_backslash_before l ->
  (is_ident_opt prev = true -> forall w l', l <> Word w :: l') ->
  (prev = Some 92%N -> forall u l', l <> Str u :: l') ->
  wr 0 prev false (flat_map show l) = flat_map (subst_item old new) l.
Proof.
  induction l as [|i l IH]; intros prev F M C B P1 P2; [reflexivity|].
  inversion F as [|? ? Fi F']; subst. inversion C as [|? ? Ci C']; subst. cbn [flat_map]. destruct i as [w|u|c].
  - assert (NW : forall w' l', l <> Word w' :: l') by (intros w' l' ->; exact M).
    destruct (write_word w prev (flat_map show l)) as (q & Q & E); auto.
    + destruct (is_ident_opt prev) eqn:X; [|reflexivity]. exfalso. eapply P1; eauto.
    + now apply head_items.
    + cbn [show subst_item]. rewrite E. f_equal. apply IH; auto.
      * destruct l as [|[| |] l]; cbn in *; auto; contradiction.
      * intros X. injection X as ->. discriminate.
  - rewrite write_str; auto.
    + cbn [subst_item]. f_equal. apply IH; auto; discriminate.
    + intros ->. eapply P2; eauto.
  - destruct Fi as [F1 F2]. cbn [show subst_item]. rewrite write_sym by assumption. cbn [app]. f_equal. apply IH; auto.
    + destruct (N.eq_dec c 92) as [->|]; [destruct l as [|[| |] l]; cbn in *; auto; contradiction|].
      cbn [no_backslash_before] in B. destruct c as [|p]; [exact B|]. repeat (destruct p as [p|p|]; try exact B; try (exfalso; congruence)).
    + cbn [is_ident_opt]. rewrite not_ident by assumption. discriminate.
    + intros X u l' ->. injection X as ->. exact B.
Qed.
End W.
