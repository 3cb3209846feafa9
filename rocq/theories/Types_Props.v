(** C45: when type equality is an equivalence. *)
From Verif Require Import Common Types_Model Types_Spec.
Local Open Scope nat_scope.

Lemma integer_spec a : integer a <-> is_integer a = true.
Proof.
  split.
  - intros [|k|n I]; [reflexivity|reflexivity|]. cbn [is_integer]. apply existsb_exists. exists n.
    split; [|apply beq_bytes_refl]. unfold int_names. cbn [In] in I |- *. tauto.
  - destruct a; try discriminate; intros E; constructor. cbn [is_integer] in E. apply existsb_exists in E as (n & I & E).
    apply beq_bytes_true in E. subst n. unfold int_names in I. cbn [In] in I |- *. tauto.
Qed.
Lemma same_eq a b : same a b -> type_eq a b = true.
Proof.
  induction 1 as [a b A B|j k|k|n|n|x y S IH|n x y S IH|n x y S IH]; try (apply integer_spec in A, B).
  - destruct a; try discriminate A; destruct b; try discriminate B; cbn [is_integer] in *;
    cbn [type_eq is_unknown is_integer orb]; rewrite ?A, ?B; reflexivity.
  - reflexivity.
  - cbn. apply Nat.eqb_refl.
  - cbn [type_eq is_unknown orb is_string is_float andb]. destruct (is_integer (TStruct n) && is_integer (TStruct n)); [reflexivity|]. apply beq_bytes_refl.
  - cbn. apply beq_bytes_refl.
  - exact IH.
  - cbn [type_eq is_unknown orb is_string is_float andb is_integer]. now rewrite Z.eqb_refl, IH.
  - cbn [type_eq is_unknown orb is_string is_float andb is_integer]. now rewrite Z.eqb_refl, IH.
Qed.
Lemma eq_same : forall a b, plain a -> plain b -> type_eq a b = true -> same a b.
Proof.
  induction a as [|j|j| | |j|n|n|x IH|n x IH|n x IH|o n x IH]; intros b Pa Pb E;
    (match goal with |- same ?a ?b => destruct (is_integer a && is_integer b) eqn:I end;
     [apply Bool.andb_true_iff in I; destruct I; apply same_int; now apply integer_spec|]);
    destruct b as [|j'|j'| | |j'|m|m|y|m y|m y|o' m y]; try destruct Pa; try destruct Pb; cbn [type_eq] in E; try rewrite I in E;
    try discriminate E; try discriminate I; try now constructor.
  - cbn in E. apply Nat.eqb_eq in E. subst. apply same_plain.
  - cbn in E. apply beq_bytes_true in E. subst. apply same_struct.
  - cbn in E. apply beq_bytes_true in E. subst. apply same_generic.
  - apply same_pointer. now apply IH.
  - cbn in E. apply Bool.andb_true_iff in E. destruct E as [E1 E2]. apply Z.eqb_eq in E1. subst. apply same_array. now apply IH.
  - cbn in E. apply Bool.andb_true_iff in E. destruct E as [E1 E2]. apply Z.eqb_eq in E1. subst. apply same_vector. now apply IH.
Qed.
Lemma same_sym a b : same a b -> same b a.
Proof. induction 1; [now apply same_int|apply same_float|apply same_plain|apply same_struct|apply same_generic|apply same_pointer|apply same_array|apply same_vector]; auto. Qed.
Lemma same_trans : forall a b c, same a b -> same b c -> same a c.
Proof.
  assert (S : forall a b, same a b -> is_integer a = is_integer b).
  { induction 1 as [a b A B| | | | | | |]; [apply integer_spec in A, B|..]; cbn; congruence. }
  intros a b c H. revert c. induction H; intros c H2.
  - apply S in H2 as I. apply same_int; auto. apply integer_spec in H, H0. apply integer_spec. congruence.
  - inversion H2; subst; try (match goal with I : integer _ |- _ => solve [inversion I] end). apply same_float.
  - exact H2.
  - exact H2.
  - exact H2.
  - inversion H2; subst; try (match goal with I : integer _ |- _ => solve [inversion I] end). apply same_pointer. auto.
  - inversion H2; subst; try (match goal with I : integer _ |- _ => solve [inversion I] end). apply same_array. auto.
  - inversion H2; subst; try (match goal with I : integer _ |- _ => solve [inversion I] end). apply same_vector. auto.
Qed.
Lemma no_alias_refl : forall a, no_alias a -> type_eq a a = true.
Proof.
  induction a as [|j|j| | |j|n|n|x IH|n x IH|n x IH|o n x IH]; intros N; try reflexivity.
  - cbn. apply Nat.eqb_refl.
  - apply same_eq, same_struct.
  - apply same_eq, same_generic.
  - exact (IH N).
  - cbn [type_eq is_unknown orb is_string is_float andb is_integer]. now rewrite Z.eqb_refl, IH.
  - cbn [type_eq is_unknown orb is_string is_float andb is_integer]. now rewrite Z.eqb_refl, IH.
  - destruct N.
Qed.
Lemma no_alias_sym : forall a b, no_alias a -> no_alias b -> type_eq a b = type_eq b a.
Proof.
  induction a as [|j|j| | |j|n|n|x IH|n x IH|n x IH|o n x IH]; intros b Na Nb; try destruct Na;
    destruct b as [|j'|j'| | |j'|m|m|y|m y|m y|o' m y]; try destruct Nb; try reflexivity;
    cbn [type_eq is_unknown orb is_string is_float andb is_integer]; rewrite ?Bool.andb_true_r, ?Bool.andb_false_r;
    try reflexivity.
  - apply Nat.eqb_sym.
  - rewrite (Bool.andb_comm (existsb (beq_bytes m) int_names)). destruct (_ && _); [reflexivity|].
    destruct (beq_bytes_spec n m), (beq_bytes_spec m n); congruence.
  - destruct (beq_bytes_spec n m), (beq_bytes_spec m n); congruence.
  - apply IH; assumption.
  - rewrite Z.eqb_sym, (IH y); auto.
  - rewrite Z.eqb_sym, (IH y); auto.
Qed.

(** On types without aliases, strings and unknown parts, type equality holds exactly of types
    that are the same up to the width of integers and floats; it is an equivalence.  Missing
    from the full claim: the other types, see the refutations. *)
Theorem C45_same_partial a b : plain a -> plain b -> (type_eq a b = true <-> same a b).
Proof. intros A B. split; [now apply eq_same|apply same_eq]. Qed.
Theorem C45_equivalence_partial :
  (forall a, plain a -> type_eq a a = true) /\
  (forall a b, plain a -> plain b -> type_eq a b = true -> type_eq b a = true) /\
  (forall a b c, plain a -> plain b -> plain c -> type_eq a b = true -> type_eq b c = true -> type_eq a c = true).
Proof.
  split; [|split].
  - intros a P. apply no_alias_refl. clear -P. induction a; cbn in *; auto.
  - intros a b A B E. apply same_eq, same_sym, eq_same; auto.
  - intros a b c A B C E F. apply same_eq. apply (same_trans a b c); apply eq_same; auto.
Qed.
(** Without aliases it is still reflexive and symmetric. *)
Theorem C45_refl_sym_partial :
  (forall a, no_alias a -> type_eq a a = true) /\
  (forall a b, no_alias a -> no_alias b -> type_eq a b = type_eq b a).
Proof. split; [exact no_alias_refl|exact no_alias_sym]. Qed.

(** Two separate copies of a transparent alias of an integer type are not equal: equality is
    not reflexive on types. *)
Theorem C45_reflexive_refuted n k : type_eq (TAlias false n (TIntK k)) (TAlias false n (TIntK k)) = false.
Proof. reflexivity. Qed.
(** A transparent alias of an opaque one is equal to the opaque one in one direction only. *)
Theorem C45_symmetric_refuted n m t u :
  type_eq (TAlias false n (TAlias true m t)) (TAlias true m u) = true /\
  type_eq (TAlias true m u) (TAlias false n (TAlias true m t)) = false.
Proof. split; [|reflexivity]. cbn. apply beq_bytes_refl. Qed.
(** A string equals a char pointer, which equals every pointer to an integer, which does not
    equal a string; and everything equals an unknown type. *)
Theorem C45_transitive_refuted k :
  (type_eq TString (TPointer TChar) = true /\ type_eq (TPointer TChar) (TPointer (TIntK k)) = true /\
   type_eq TString (TPointer (TIntK k)) = false) /\
  (forall a, type_eq a TUnknown = true /\ type_eq TUnknown a = true).
Proof.
  split; [repeat split; reflexivity|]. intros a. split; [|reflexivity]. destruct a; reflexivity.
Qed.

Example C45_ex : plain (TPointer (TArray 4 (TStruct (bs "uint8_t")))) /\
  type_eq (TPointer (TArray 4 (TStruct (bs "uint8_t")))) (TPointer (TArray 4 (TIntK 3))) = true /\
  type_eq (TPointer (TArray 4 (TIntK 3))) (TPointer (TArray 5 (TIntK 3))) = false.
Proof. repeat split. Qed.

Print Assumptions C45_same_partial.
Print Assumptions C45_equivalence_partial.
Print Assumptions C45_refl_sym_partial.
Print Assumptions C45_reflexive_refuted.
Print Assumptions C45_symmetric_refuted.
Print Assumptions C45_transitive_refuted.
