(** C93: semantic tokens. *)
From Verif Require Import Common Semtok_Model Semtok_Spec Semtok_Proofs.
Local Open Scope Z_scope.

(** Whatever qsort does, the editor can read the answer, and reads tokens of the file, in the order
    of the text, one at a place, and one at every place the walk has found. *)
Theorem C93_decodes : forall root data, lengths_ok (all root) -> answers root data ->
  exists shown, decode data = Some shown /\ StronglySorted before shown /\
    (forall s, In s shown -> In s (all root)) /\
    (forall s, In s (traverse root) -> exists y, In y shown /\ pos y = pos s).
Proof.
  intros root data L (s & [P S] & ->). exists (distinct None s).
  assert (I : forall t, In t s -> In t (traverse root)) by (intros t H; apply (Permutation_in _ (Permutation_sym P)); auto).
  split; [|split; [|split]].
  - unfold decode. apply encode_decode; auto.
    + intros t H. split; [apply (all_ok root)|apply L]; apply traverse_in, I, H.
    + intros t H. destruct (all_ok root t (traverse_in root t (I t H))) as (A & B & _). lia.
  - apply distinct_sorted; auto. discriminate.
  - intros t H. apply traverse_in, I, (distinct_in s None t H).
  - intros t H. apply (Permutation_in _ P) in H. destruct (distinct_pos s None t H) as [[]|X]. exact X.
Qed.
Print Assumptions C93_decodes.

(** An answer always exists. *)
Theorem C93_answers : forall root, exists data, answers root data.
Proof. intros root. eexists. exists (sort (traverse root)). split; [apply sort_ok|reflexivity]. Qed.
Print Assumptions C93_answers.

(** Every name of the tree is shown, when the lists of declarations, fields, variants and methods
    have one element at most and there is no construct the walk does not know. *)
Theorem C93_complete_partial : forall root data, covered root = true -> lengths_ok (all root) -> answers root data ->
  exists shown, decode data = Some shown /\ forall s, In s (all root) -> exists y, In y shown /\ pos y = pos s.
Proof.
  intros root data C L A. destruct (C93_decodes root data L A) as (shown & D & _ & _ & X). exists shown. split; auto.
  rewrite <- (traverse_all root C). exact X.
Qed.
Print Assumptions C93_complete_partial.

(** False in general: of a file only the first declaration is shown, of a struct the first field,
    of an enum the first variant, of a trait or an impl the first method, and nothing inside a
    construct the walk does not know (an if, a while, ...). *)
Theorem C93_first_refuted : forall d ds data, answers (NRoot (d :: ds)) data <-> answers (NRoot [d]) data.
Proof. intros d ds data. unfold answers. cbn [traverse]. tauto. Qed.
Print Assumptions C93_first_refuted.
Theorem C93_members_refuted : forall t f fs data,
  (answers (NRoot [NStruct t (f :: fs)]) data <-> answers (NRoot [NStruct t [f]]) data) /\
  (answers (NRoot [NEnum t (f :: fs)]) data <-> answers (NRoot [NEnum t [f]]) data) /\
  (answers (NRoot [NTrait t (f :: fs)]) data <-> answers (NRoot [NTrait t [f]]) data) /\
  (answers (NRoot [NImpl t (f :: fs)]) data <-> answers (NRoot [NImpl t [f]]) data) /\
  (answers (NRoot [NImplTrait t (f :: fs)]) data <-> answers (NRoot [NImplTrait t [f]]) data).
Proof. intros. unfold answers. cbn [traverse]. tauto. Qed.
Print Assumptions C93_members_refuted.
Theorem C93_constructs_refuted : forall t before_ kids after data,
  answers (NRoot [NFunction t (NBlock (before_ ++ NOther kids :: after))]) data <->
  answers (NRoot [NFunction t (NBlock (before_ ++ after))]) data.
Proof. intros. unfold answers. cbn [traverse]. rewrite !flat_map_app. cbn [flat_map traverse app]. tauto. Qed.
Print Assumptions C93_constructs_refuted.
(** so a second function is never shown, although it is in the tree *)
Theorem C93_second_refuted : forall d t body data, t_eof t = false -> 1 <= t_line t -> 1 <= t_col t -> lengths_ok (all d) ->
  (forall s, In s (all d) -> pos s <> (t_line t - 1, t_col t - 1)) -> answers (NRoot [d; NFunction t body]) data ->
  exists shown, decode data = Some shown /\ In (Sem (t_line t - 1) (t_col t - 1) (t_len t) 1 1) (all (NRoot [d; NFunction t body])) /\
    forall y, In y shown -> pos y <> (t_line t - 1, t_col t - 1).
Proof.
  intros d t body data T A B L N H. apply (proj1 (C93_first_refuted d [NFunction t body] data)) in H.
  destruct (C93_decodes (NRoot [d]) data) as (shown & D & _ & I & _); auto.
  { cbn [all flat_map]. rewrite app_nil_r. exact L. }
  exists shown. split; auto. split.
  - cbn [all flat_map]. rewrite !in_app_iff. right. left. left. unfold push_token, push. rewrite T.
    destruct (Z.ltb_spec (t_line t - 1) 0); [lia|]. destruct (Z.ltb_spec (t_col t - 1) 0); [lia|]. now left.
  - intros y Y. apply N. apply I in Y. cbn [all flat_map] in Y. now rewrite app_nil_r in Y.
Qed.
Print Assumptions C93_second_refuted.

(** If a tree has two tokens of different kinds at one place, which kind is shown is left to qsort.
    (Whether the parser makes such trees is not part of this model.) *)
Theorem C93_ties : forall l c n, 1 <= l -> 1 <= c -> exists root,
  root = NRoot [NVarDecl (Token false l c n) (NLiteral (Token false l c n) LInt)] /\
  answers root (encode None 0 0 [Sem (l-1) (c-1) n 0 0; Sem (l-1) (c-1) n 5 0]) /\
  answers root (encode None 0 0 [Sem (l-1) (c-1) n 5 0; Sem (l-1) (c-1) n 0 0]) /\
  encode None 0 0 [Sem (l-1) (c-1) n 0 0; Sem (l-1) (c-1) n 5 0] <> encode None 0 0 [Sem (l-1) (c-1) n 5 0; Sem (l-1) (c-1) n 0 0].
Proof.
  intros l c n L C. eexists. split; [reflexivity|].
  assert (T : traverse (NRoot [NVarDecl (Token false l c n) (NLiteral (Token false l c n) LInt)]) = [Sem (l-1) (c-1) n 0 0; Sem (l-1) (c-1) n 5 0]).
  { cbn [traverse]. unfold push_token, push. cbn [t_eof t_line t_col t_len].
    destruct (Z.ltb_spec (l - 1) 0); [lia|]. destruct (Z.ltb_spec (c - 1) 0); [lia|]. reflexivity. }
  assert (E : forall a b, compare_tokens (Sem (l-1) (c-1) n a 0) (Sem (l-1) (c-1) n b 0) = 0).
  { intros. unfold compare_tokens. cbn [s_line s_col]. rewrite Z.eqb_refl. lia. }
  split; [|split].
  - eexists. split; [|reflexivity]. rewrite T. split; [reflexivity|]. repeat constructor. rewrite E. lia.
  - eexists. split; [|reflexivity]. rewrite T. split; [apply perm_swap|]. repeat constructor. rewrite E. lia.
  - cbn [encode s_line s_col s_len s_type s_mods]. intros X. cbn [app] in X. injection X. discriminate.
Qed.
Print Assumptions C93_ties.

(** The hypotheses are met: two functions, the first with a call in its body. *)
Definition tk (l c n : Z) := Token false l c n.
Definition example_root : node :=
  NRoot [NFunction (tk 1 4 4) (NBlock [NVarDecl (tk 2 9 1) (NLiteral (tk 2 13 2) LInt); NCall (NVar (tk 3 5 5)) [NVar (tk 3 11 1)]])].
Example C93_case :
  covered example_root = true /\ lengths_ok (all example_root) /\
  (exists data, answers example_root data /\ decode data = Some [Sem 0 3 4 1 1; Sem 1 8 1 0 0; Sem 1 12 2 5 0; Sem 2 4 5 0 0; Sem 2 10 1 0 0]) /\
  (forall s, In s (all (NVar (tk 1 1 1))) -> pos s <> (4 - 1, 1 - 1)).
Proof.
  split; [reflexivity|]. split; [|split].
  - intros s H. cbn in H. repeat (destruct H as [<-|H]; [cbn; lia|]). destruct H.
  - exists (encode None 0 0 (sort (traverse example_root))). split; [exists (sort (traverse example_root)); split; [apply sort_ok|reflexivity]|vm_compute; reflexivity].
  - intros s H. cbn in H. destruct H as [<-|[]]. discriminate.
Qed.
