From Verif Require Import Common Mangle_Model Mangle_Spec.
Local Open Scope nat_scope.

Lemma ident_char_spec c : ident_char c = true <-> letter c.
Proof.
  unfold ident_char, letter. rewrite !Bool.orb_true_iff, !Bool.andb_true_iff, !N.leb_le, N.eqb_eq. lia.
Qed.
Lemma clean_letters c x : In x (clean_char c) -> letter x.
Proof.
  unfold clean_char. destruct (c =? 42)%N; [cbn; unfold letter; intuition subst; lia|].
  destruct (_ || _ || _); [cbn; unfold letter; intuition subst; lia|].
  destruct (_ || _); [intros []|]. destruct (ident_char c) eqn:E; cbn; intros [<-|[]]; [now apply ident_char_spec|unfold letter; lia].
Qed.
Lemma clean_len c : length (clean_char c) <= 3.
Proof.
  unfold clean_char. destruct (c =? 42)%N; [cbn; lia|]. destruct (_ || _ || _); [cbn; lia|]. destruct (_ || _); [cbn; lia|].
  destruct (ident_char c); cbn; lia.
Qed.
Lemma flat_len s : length (flat_map clean_char s) <= 3 * length s.
Proof. induction s as [|c s IH]; cbn [flat_map length]; [lia|]. rewrite app_length. pose proof (clean_len c). lia. Qed.

Lemma clean_letter c : letter c -> clean_char c = [c].
Proof.
  intros L. unfold clean_char. unfold letter in L.
  destruct (N.eqb_spec c 42); [lia|]. destruct (N.eqb_spec c 60); [lia|]. destruct (N.eqb_spec c 44); [lia|].
  destruct (N.eqb_spec c 32); [lia|]. cbn [orb]. destruct (N.eqb_spec c 62); [lia|]. destruct (N.eqb_spec c 38); [lia|]. cbn [orb].
  now rewrite (proj2 (ident_char_spec c)).
Qed.
Lemma flat_ident name : identifier name -> flat_map clean_char name = name.
Proof. induction 1 as [|c l L _ IH]; [reflexivity|]. cbn [flat_map]. now rewrite clean_letter, IH. Qed.
Fixpoint ptrs (k : nat) : bytes := match k with O => [] | S k => bs "Ptr" ++ ptrs k end.
Lemma flat_stars k : flat_map clean_char (repeat 42%N k) = ptrs k.
Proof. induction k; cbn [repeat flat_map ptrs]; [reflexivity|]. now rewrite IHk. Qed.
Lemma ptrs_snoc k : ptrs (S k) = ptrs k ++ bs "Ptr".
Proof. induction k; [reflexivity|]. cbn [ptrs] in *. now rewrite IHk, app_assoc at 1. Qed.
Lemma not_struct name k : identifier name -> is_prefix (bs "struct ") (pointers name k) = false.
Proof.
  intros I. destruct (is_prefix _ _) eqn:E; [|reflexivity]. exfalso. apply is_prefix_spec in E. destruct E as [r E].
  assert (S : In 32%N (pointers name k)) by (rewrite E; apply in_or_app; left; cbn; tauto).
  unfold pointers in S. apply in_app_or in S. destruct S as [S|S].
  - unfold identifier in I. rewrite Forall_forall in I. specialize (I _ S). unfold letter in I. lia.
  - apply repeat_spec in S. discriminate.
Qed.
Lemma sanitize_pointers name k : identifier name -> sanitize (pointers name k) = name ++ ptrs k.
Proof.
  intros I. unfold sanitize. rewrite not_struct by assumption. unfold pointers. rewrite flat_map_app, flat_ident by assumption.
  now rewrite flat_stars.
Qed.
Lemma app_inj_3 {A} (x y : list A) a b c a' b' c' : x ++ [a; b; c] = y ++ [a'; b'; c'] -> x = y /\ [a; b; c] = [a'; b'; c'].
Proof.
  intros E.
  replace (x ++ [a; b; c]) with (((x ++ [a]) ++ [b]) ++ [c]) in E by now rewrite <- !app_assoc.
  replace (y ++ [a'; b'; c']) with (((y ++ [a']) ++ [b']) ++ [c']) in E by now rewrite <- !app_assoc.
  apply app_inj_tail in E. destruct E as [E ->]. apply app_inj_tail in E. destruct E as [E ->]. apply app_inj_tail in E.
  destruct E as [-> ->]. auto.
Qed.
Lemma ptrs_inj : forall k k' n n', ~ (exists p, n = p ++ bs "Ptr") -> ~ (exists p, n' = p ++ bs "Ptr") ->
  n ++ ptrs k = n' ++ ptrs k' -> n = n' /\ k = k'.
Proof.
  induction k as [|k IH]; intros k' n n' H H' E.
  - destruct k' as [|k']; [rewrite !app_nil_r in E; auto|]. exfalso. apply H. rewrite ptrs_snoc, app_assoc in E.
    cbn [ptrs] in E. rewrite app_nil_r in E. now exists (n' ++ ptrs k').
  - destruct k' as [|k'].
    + exfalso. apply H'. rewrite ptrs_snoc, app_assoc in E. cbn [ptrs] in E. rewrite app_nil_r in E. now exists (n ++ ptrs k).
    + rewrite !ptrs_snoc, !app_assoc in E. apply app_inv_tail in E. destruct (IH k' n n' H H' E) as [-> ->]. auto.
Qed.
Lemma sanitize_simple_inj s s' : simple s -> simple s' -> sanitize s = sanitize s' -> s = s'.
Proof.
  intros (n & k & -> & I & H) (n' & k' & -> & I' & H') E. rewrite !sanitize_pointers in E by assumption.
  destruct (ptrs_inj k k' n n' H H' E) as [-> ->]. reflexivity.
Qed.
Lemma sanitize_ident s : identifier (sanitize s).
Proof.
  apply Forall_forall. intros x X. unfold sanitize in X. apply in_flat_map in X. destruct X as (c & _ & X). now apply clean_letters in X.
Qed.

(** * Instances *)
Lemma mangled_ok tpl args m : mangled tpl args = Ok m -> m = tpl ++ flat_map (fun a => 95%N :: sanitize a) args /\ length m < 256.
Proof. unfold mangled. destruct (Nat.ltb_spec (length (tpl ++ flat_map (fun a => 95%N :: sanitize a) args)) 256); [|discriminate]. intros E. injection E as <-. auto. Qed.
Definition consistent (insts : list inst) : Prop := forall i, In i insts -> mangled (i_tpl i) (i_args i) = Ok (i_name i).
Lemma instantiate_keeps insts tpl args insts' : instantiate insts tpl args = Ok insts' -> consistent insts ->
  consistent insts' /\ (forall i, In i insts -> In i insts') /\
  (forall i, In i insts' -> In i insts \/ (i_tpl i = tpl /\ i_args i = args)) /\
  (exists m i, mangled tpl args = Ok m /\ In i insts' /\ i_name i = m).
Proof.
  unfold instantiate. destruct (mangled tpl args) as [m| | |] eqn:M; try discriminate. cbn [bind].
  destruct (existsb _ insts) eqn:E; intros X; injection X as <-; intros C.
  - split; [exact C|]. split; [auto|]. split; [auto|]. apply existsb_exists in E. destruct E as (i & I & E).
    apply beq_bytes_true in E. eauto.
  - split; [|split; [|split]].
    + intros i [<-|I]; [exact M|auto].
    + intros i I. now right.
    + intros i [<-|I]; [right; auto|auto].
    + exists m. eexists. split; [reflexivity|]. split; [now left|reflexivity].
Qed.
Lemma all_keeps : forall l insts insts', instantiate_all insts l = Ok insts' -> consistent insts ->
  consistent insts' /\ (forall i, In i insts -> In i insts') /\
  (forall i, In i insts' -> In i insts \/ In (i_tpl i, i_args i) l) /\
  (forall t a, In (t, a) l -> exists m i, mangled t a = Ok m /\ In i insts' /\ i_name i = m).
Proof.
  induction l as [|[t a] l IH]; intros insts insts' E C.
  - injection E as <-. split; [exact C|]. split; [auto|]. split; [auto|]. intros t a [].
  - cbn [instantiate_all] in E. destruct (instantiate insts t a) as [i1| | |] eqn:E1; try discriminate. cbn [bind] in E.
    destruct (instantiate_keeps _ _ _ _ E1 C) as (C1 & K1 & O1 & (m & i & M & I & N)).
    destruct (IH _ _ E C1) as (C2 & K2 & O2 & F2). split; [exact C2|]. split; [auto|]. split.
    + intros j J. destruct (O2 j J) as [J1|J1]; [|right; now right]. destruct (O1 j J1) as [J2|[<- <-]]; [now left|right; now left].
    + intros t' a' [X|X]; [|eauto]. injection X as <- <-. exists m, i. auto.
Qed.
