(** C47: substituting a type parameter in raw text. *)
From Verif Require Import Common Subst_Model Subst_Spec Subst_Proofs.
Local Open Scope nat_scope.

Ltac items := repeat first [apply Forall_nil | apply Forall_cons | discriminate | (unfold word_char; cbn; lia) | exact I | progress cbn [item_ok unit_ok] | split].
Lemma no_comma old : word old -> existsb (N.eqb 44) old = false.
Proof.
  intros [_ F]. destruct (existsb (N.eqb 44) old) eqn:E; [|reflexivity]. exfalso. apply existsb_exists in E.
  destruct E as (x & I & E). apply N.eqb_eq in E. subst x. rewrite Forall_forall in F. specialize (F _ I). unfold word_char in F. lia.
Qed.
(** Whatever the text, the word and its replacement, the two passes agree: the result fits
    in the buffer and substitution ends. *)
Theorem C47_total src old new : word old -> exists out, replace_in_string src old new = Ok out.
Proof.
  intros W. unfold replace_in_string. rewrite (no_comma old W). rewrite replace_one_ok by (now destruct W). eauto.
Qed.
(** In a text made of words, string literals and other characters, exactly the words equal to
    the parameter are replaced and everything else is unchanged.  Missing from the full
    claim: string literals that end in an escaped backslash or that directly follow a
    backslash ([C47_backslash_refuted]), quotes in character literals
    ([C47_char_literal_refuted]), and several parameters at once
    ([C47_simultaneous_refuted]). *)
Theorem C47_replace_partial text items old new :
  reads text items -> word old -> Forall clean_str items -> no_backslash_before items ->
  replace_in_string text old new = Ok (flat_map (subst_item old new) items).
Proof.
  intros (-> & F & M) W C B. unfold replace_in_string. rewrite (no_comma old W). rewrite replace_one_ok by (now destruct W).
  f_equal. apply write_items; auto; discriminate.
Qed.
(** A string literal that ends in an escaped backslash is not seen to end: the word after it
    is not replaced. *)
Theorem C47_backslash_refuted : exists text items,
  reads text items /\ In (Word (bs "T")) items /\
  replace_in_string text (bs "T") (bs "int") = Ok text.
Proof.
  exists ([34; 92; 92; 34; 32; 84]%N), [Str [Esc 92]; Sym 32; Word (bs "T")]. split; [|split; [cbn; auto|reflexivity]].
  split; [reflexivity|]. split; [|cbn; auto].
  items.
Qed.
(** The character literal of a quote is taken for the start of a string: what follows it is
    not replaced.  The text is "a quote between apostrophes, a space, T". *)
Theorem C47_char_literal_refuted :
  replace_in_string ([39; 34; 39; 32]%N ++ bs "T") (bs "T") (bs "int") = Ok ([39; 34; 39; 32]%N ++ bs "T").
Proof. reflexivity. Qed.
(** Several parameters are substituted one after the other, not at once: replacing A by B and
    B by int turns an A into int. *)
Theorem C47_simultaneous_refuted :
  replace_in_string (bs "A") (bs "A,B") (bs "B,int") = Ok (bs "int").
Proof. reflexivity. Qed.
(** Several parameters: if no replacement mentions a later parameter as a word, the result is
    that of replacing the words one after the other (here for two). *)
Theorem C47_two src p q a b out1 out2 :
  word p -> word q -> a <> [] -> ~ In 44%N a -> ~ In 44%N b -> b <> [] ->
  replace_in_string src p a = Ok out1 -> replace_in_string out1 q b = Ok out2 ->
  replace_in_string src (p ++ 44%N :: q) (a ++ 44%N :: b) = Ok out2.
Proof.
  intros Wp Wq NA CA CB NB E1 E2. unfold replace_in_string in *. rewrite no_comma in E1, E2 by assumption.
  replace (existsb (N.eqb 44) (p ++ 44%N :: q)) with true.
  2: { symmetry. apply existsb_exists. exists 44%N. split; [apply in_or_app; right; now left|reflexivity]. }
  assert (K : forall (s r : bytes), ~ In 44%N s -> cut (s ++ 44%N :: r) = (s, Some r)).
  { induction s as [|c s IH]; intros r N; [reflexivity|]. cbn [app cut]. destruct (N.eqb_spec c 44) as [->|]; [exfalso; apply N; now left|].
    rewrite IH; [reflexivity|]. intros X. apply N. now right. }
  assert (K0 : forall s : bytes, ~ In 44%N s -> cut s = (s, None)).
  { induction s as [|c s IH]; intros N; [reflexivity|]. cbn [cut]. destruct (N.eqb_spec c 44) as [->|]; [exfalso; apply N; now left|].
    rewrite IH; [reflexivity|]. intros X. apply N. now right. }
  assert (NC : forall w, word w -> ~ In 44%N w).
  { intros w [_ F] X. rewrite Forall_forall in F. specialize (F _ X). unfold word_char in F. lia. }
  rewrite app_length. cbn [length]. rewrite Nat.add_comm. cbn [plus replace_many].
  destruct (p ++ 44%N :: q) as [|x xs] eqn:X; [destruct p; discriminate|]. rewrite <- X.
  destruct (a ++ 44%N :: b) as [|y ys] eqn:Y; [destruct a; discriminate|]. rewrite <- Y.
  rewrite K by now apply NC. rewrite K by assumption. rewrite E1. cbn [bind].
  destruct Wq as [NQ FQ]. destruct (length p + S (length q)) as [|k] eqn:L; [lia|]. cbn [replace_many].
  destruct q as [|q0 q]; [congruence|]. destruct b as [|b0 b]; [congruence|].
  rewrite K0 by (apply NC; split; assumption). rewrite K0 by assumption. rewrite E2. reflexivity.
Qed.

Example C47_ex : let items := [Word (bs "Vec"); Sym 60; Word (bs "T"); Sym 62; Sym 32; Str [Plain 84; Esc 34; Plain 84]; Sym 40; Word (bs "T"); Sym 44; Word (bs "T2"); Sym 41]%N in
  reads (flat_map show items) items /\ Forall clean_str items /\ no_backslash_before items /\
  flat_map (subst_item (bs "T") (bs "int")) items = bs "Vec<int> ""T\""T""(int,T2)".
Proof.
  cbv zeta. split; [|split; [|split; [cbn; auto|reflexivity]]].
  - split; [reflexivity|]. split; [|cbn; auto]. items.
  - repeat constructor. intros [l E]. destruct l as [|? [|? [|? [|]]]]; discriminate.
Qed.

Print Assumptions C47_total.
Print Assumptions C47_replace_partial.
Print Assumptions C47_two.
Print Assumptions C47_backslash_refuted.
Print Assumptions C47_char_literal_refuted.
Print Assumptions C47_simultaneous_refuted.
