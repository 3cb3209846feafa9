From Verif Require Import Common Semtok_Model Semtok_Spec.
Local Open Scope Z_scope.

(** ** An induction principle that sees the lists *)
Fixpoint size (n : node) : nat :=
  S match n with
  | NNull | NAlias _ | NVar _ | NField _ | NLiteral _ _ | NVariant _ => 0
  | NFunction _ b | NVarDecl _ b | NConst _ b | NReturn b | NLambda b | NMember b _ => size b
  | NBinary a b | NDestruct a b | NMatchCase a b => size a + size b
  | NForRange a b c => size a + size b + size c
  | NCall c l => size c + list_sum (map size l)
  | NBlock l | NStruct _ l | NTrait _ l | NImpl _ l | NImplTrait _ l | NEnum _ l | NRoot l | NOther l => list_sum (map size l)
  end.
Lemma size_in n l : In n l -> (size n <= list_sum (map size l))%nat.
Proof. induction l as [|a l IH]; [intros []|]. intros [->|H]; cbn [map list_sum fold_right]; [lia|]. specialize (IH H). unfold list_sum in IH. lia. Qed.

Lemma flat_same {A} (f g : node -> list A) l : (forall x, In x l -> f x = g x) -> flat_map f l = flat_map g l.
Proof. induction l as [|a l IH]; intros H; cbn [flat_map]; [reflexivity|]. rewrite (H a), IH; auto; [|now left]. intros x X. apply H. now right. Qed.

Lemma traverse_all_n k : forall n, (size n <= k)%nat -> covered n = true -> traverse n = all n.
Proof.
  induction k as [|k IH]; intros n S C; [destruct n; cbn in S; lia|].
  assert (L : forall l, (list_sum (map size l) <= k)%nat -> forallb covered l = true -> flat_map traverse l = flat_map all l).
  { intros l Hl F. apply flat_same. intros x X. apply IH; [pose proof (size_in x l X); lia|]. rewrite forallb_forall in F. auto. }
  assert (L1 : forall l, (list_sum (map size l) <= k)%nat -> at_most_one l && forallb covered l = true ->
     match l with [] => [] | f :: _ => traverse f end = flat_map all l).
  { intros l Hl F. apply andb_prop in F as [F1 F2]. destruct l as [|x [|y l]]; [reflexivity| |discriminate].
    cbn [flat_map]. rewrite app_nil_r. cbn [map list_sum fold_right] in Hl. apply IH; [lia|]. cbn in F2. now rewrite andb_true_r in F2. }
  destruct n; cbn [size] in S; cbn [covered] in C; cbn [traverse all]; try reflexivity;
    repeat match goal with
    | H : (_ && _)%bool = true |- _ => lazymatch type of H with
        | (at_most_one _ && _)%bool = true => fail
        | _ => apply andb_prop in H as [? ?] end
    end;
    rewrite ?IH by (assumption || lia); rewrite ?L by (assumption || lia); rewrite ?L1 by (assumption || lia); try reflexivity.
  destruct kids; [reflexivity|]. exfalso. apply andb_prop in C as [_ C]. discriminate.
Qed.
Lemma traverse_all n : covered n = true -> traverse n = all n.
Proof. apply (traverse_all_n (size n)). lia. Qed.

(** ** What is pushed *)
Definition ok (s : sem) : Prop := 0 <= s_line s /\ 0 <= s_col s /\ 0 <= s_type s /\ 0 <= s_mods s.
Lemma push_ok t ty md s : 0 <= ty -> 0 <= md -> In s (push_token t ty md) -> ok s.
Proof.
  intros A B. unfold push_token, push. destruct (t_eof t); [intros []|].
  destruct (Z.ltb_spec (t_line t - 1) 0); [intros []|]. destruct (Z.ltb_spec (t_col t - 1) 0); [intros []|]. cbn [orb].
  intros [<-|[]]. unfold ok. cbn. lia.
Qed.
Lemma all_ok_n k : forall n, (size n <= k)%nat -> forall s, In s (all n) -> ok s.
Proof.
  induction k as [|k IH]; intros n S s H; [destruct n; cbn in S; lia|].
  assert (L : forall l, (list_sum (map size l) <= k)%nat -> In s (flat_map all l) -> ok s).
  { intros l Hl X. apply in_flat_map in X as (x & X1 & X2). apply (IH x); auto. pose proof (size_in x l X1). lia. }
  destruct n; cbn [size] in S; cbn [all] in H; try destruct k0; try contradiction;
    repeat match goal with X : In s (_ ++ _) |- _ => apply in_app_or in X as [X|X] end;
    try (eapply push_ok; [| |eassumption]; lia); try (eapply IH; [|eassumption]; lia); try (eapply L; [|eassumption]; lia).
Qed.
Lemma all_ok n s : In s (all n) -> ok s. Proof. apply (all_ok_n (size n)). lia. Qed.
(** what is visited is in the tree *)
Lemma traverse_in_n k : forall n, (size n <= k)%nat -> forall s, In s (traverse n) -> In s (all n).
Proof.
  induction k as [|k IH]; intros n S s H; [destruct n; cbn in S; lia|].
  assert (L : forall l, (list_sum (map size l) <= k)%nat -> In s (flat_map traverse l) -> In s (flat_map all l)).
  { intros l Hl X. apply in_flat_map in X as (x & X1 & X2). apply in_flat_map. exists x. split; auto. apply (IH x); auto. pose proof (size_in x l X1). lia. }
  assert (L1 : forall l, (list_sum (map size l) <= k)%nat -> In s (match l with [] => [] | f :: _ => traverse f end) -> In s (flat_map all l)).
  { intros [|x l] Hl X; [destruct X|]. cbn [flat_map]. apply in_or_app. left. cbn [map list_sum fold_right] in Hl. apply IH; auto. lia. }
  destruct n; cbn [size] in S; cbn [traverse] in H; cbn [all]; auto; try contradiction;
    repeat match goal with X : In s (_ ++ _) |- _ => apply in_app_or in X as [X|X] end;
    repeat rewrite in_app_iff; auto 6;
    try (apply IH in H; [|lia]; auto 6); try (apply L in H; [|lia]; auto 6); try (apply L1 in H; [|lia]; auto 6).
Qed.
Lemma traverse_in n s : In s (traverse n) -> In s (all n). Proof. apply (traverse_in_n (size n)). lia. Qed.

(** ** Sorting and encoding *)
Lemma compare_spec a b : compare_tokens a b <= 0 <-> before a b \/ pos a = pos b.
Proof.
  unfold compare_tokens, before, pos. destruct (Z.eqb_spec (s_line a) (s_line b)) as [E|E].
  - rewrite E. split.
    + intros H. destruct (Z.eq_dec (s_col a) (s_col b)) as [->|]; [right; reflexivity|left; right; lia].
    + intros [[H|[_ H]]|H]; [lia|lia|injection H; lia].
  - split; [intros H; left; left; lia|]. intros [[H|[H _]]|H]; [lia|contradiction|injection H; contradiction].
Qed.

(** the first token of each group of equal positions *)
Fixpoint distinct (last : option sem) (s : list sem) : list sem :=
  match s with
  | [] => []
  | t :: r => if match last with Some p => (s_line t =? s_line p) && (s_col t =? s_col p) | None => false end
              then distinct (Some t) r else t :: distinct (Some t) r
  end.
Definition sorted := StronglySorted (fun a b => compare_tokens a b <= 0).

Lemma encode_decode s : forall last pl pc, sorted s -> (forall t, In t s -> ok t /\ 0 <= s_len t) ->
  (forall t, In t s -> pl < s_line t \/ (pl = s_line t /\ pc <= s_col t)) ->
  decode_from pl pc (encode last pl pc s) = Some (distinct last s).
Proof.
  induction s as [|t s IH]; intros last pl pc S O B; [reflexivity|]. cbn [encode distinct].
  assert (S' := S). inversion S' as [|? ? S1 S2]; subst.
  destruct (match last with Some p => _ | None => false end).
  - apply IH; auto; intros x X; [apply O|apply B]; now right.
  - destruct (O t (or_introl eq_refl)) as [(A1 & A2 & A3 & A4) A5]. destruct (B t (or_introl eq_refl)) as [B1|[B1 B2]].
    + cbv zeta. cbn [app decode_from]. destruct (Z.eqb_spec (s_line t - pl) 0) as [E|E]; [lia|].
      destruct (Z.ltb_spec (s_line t - pl) 0); [lia|]. destruct (Z.ltb_spec (s_col t) 0); [lia|].
      destruct (Z.ltb_spec (s_len t) 0); [lia|]. destruct (Z.ltb_spec (s_type t) 0); [lia|]. destruct (Z.ltb_spec (s_mods t) 0); [lia|].
      cbn [orb]. replace (pl + (s_line t - pl)) with (s_line t) by lia.
      rewrite IH; auto; [destruct t; reflexivity|intros x X; apply O; now right|].
      intros x X. rewrite Forall_forall in S2. apply S2 in X. apply compare_spec in X. unfold before, pos in X.
      destruct X as [[X|X]|X]; [lia|lia|injection X; lia].
    + subst pl. cbv zeta. rewrite Z.sub_diag. cbn [app decode_from]. rewrite Z.eqb_refl. cbv iota.
      destruct (Z.ltb_spec (s_col t - pc) 0); [lia|].
      destruct (Z.ltb_spec (s_len t) 0); [lia|]. destruct (Z.ltb_spec (s_type t) 0); [lia|]. destruct (Z.ltb_spec (s_mods t) 0); [lia|].
      change (0 <? 0) with false. cbn [orb]. replace (s_line t + 0) with (s_line t) by lia. replace (pc + (s_col t - pc)) with (s_col t) by lia.
      rewrite IH; auto; [destruct t; reflexivity|intros x X; apply O; now right|].
      intros x X. rewrite Forall_forall in S2. apply S2 in X. apply compare_spec in X. unfold before, pos in X.
      destruct X as [[X|X]|X]; [lia|lia|injection X; lia].
Qed.

Lemma distinct_in s : forall last x, In x (distinct last s) -> In x s.
Proof.
  induction s as [|t s IH]; intros last x; cbn [distinct]; [intros []|].
  destruct (match last with Some p => _ | None => false end); [intros H; right; eauto|]. intros [->|H]; [now left|right; eauto].
Qed.
Lemma same_pos a b : (s_line a =? s_line b) && (s_col a =? s_col b) = true <-> pos a = pos b.
Proof.
  unfold pos. split.
  - intros E. apply andb_prop in E as [E1 E2]. apply Z.eqb_eq in E1. apply Z.eqb_eq in E2. now rewrite E1, E2.
  - intros E. injection E as -> ->. now rewrite !Z.eqb_refl.
Qed.
Lemma distinct_pos s : forall last x, In x s -> match last with Some p => pos p = pos x | None => False end \/ exists y, In y (distinct last s) /\ pos y = pos x.
Proof.
  induction s as [|t s IH]; intros last x H; [destruct H|]. cbn [distinct].
  destruct (match last with Some p => _ | None => false end) eqn:E.
  - destruct last as [p|]; [|discriminate]. apply same_pos in E. destruct H as [->|H]; [left; congruence|].
    destruct (IH (Some t) x H) as [A|A]; [left; congruence|right; exact A].
  - destruct H as [->|H]; [right; exists x; split; [now left|reflexivity]|].
    destruct (IH (Some t) x H) as [A|(y & A & B)]; right; [exists t; split; [now left|auto]|exists y; split; [now right|auto]].
Qed.
Lemma distinct_sorted s : forall last, sorted s -> (forall p, last = Some p -> forall x, In x s -> compare_tokens p x <= 0) ->
  StronglySorted before (distinct last s) /\ forall p, last = Some p -> Forall (before p) (distinct last s).
Proof.
  induction s as [|t s IH]; intros last S L; cbn [distinct]; [split; constructor|].
  inversion S as [|? ? S1 S2]; subst. rewrite Forall_forall in S2.
  destruct (IH (Some t) S1) as [D1 D2]; [intros p E; injection E as <-; auto|]. specialize (D2 t eq_refl).
  destruct (match last with Some p => _ | None => false end) eqn:E.
  - split; [exact D1|]. intros p ->. apply same_pos in E. rewrite Forall_forall in *. intros x X. specialize (D2 x X).
    unfold before, pos in *. injection E as E1 E2. lia.
  - split; [constructor; auto|]. intros p ->.
    assert (B : before p t). { pose proof (L p eq_refl t (or_introl eq_refl)) as C. apply compare_spec in C as [C|C]; auto.
      symmetry in C. apply same_pos in C. congruence. }
    constructor; auto. rewrite Forall_forall in *. intros x X. specialize (D2 x X). unfold before in *. lia.
Qed.

(** qsort always has an answer *)
Fixpoint insert (a : sem) (l : list sem) : list sem :=
  match l with [] => [a] | b :: r => if compare_tokens a b <=? 0 then a :: l else b :: insert a r end.
Definition sort (l : list sem) : list sem := fold_right insert [] l.
Lemma compare_trans a b c : compare_tokens a b <= 0 -> compare_tokens b c <= 0 -> compare_tokens a c <= 0.
Proof.
  rewrite !compare_spec. unfold before, pos. intros [A|A] [B|B];
   try (injection A as A1 A2); try (injection B as B1 B2); [left; lia|left; rewrite <- B1, <- B2; auto|left; rewrite A1, A2; auto|right; congruence].
Qed.
Lemma insert_perm a l : Permutation (a :: l) (insert a l).
Proof.
  induction l as [|b l IH]; cbn [insert]; [reflexivity|]. destruct (compare_tokens a b <=? 0); [reflexivity|].
  rewrite perm_swap. constructor. exact IH.
Qed.
Lemma insert_sorted a l : sorted l -> sorted (insert a l).
Proof.
  induction l as [|b l IH]; intros S; cbn [insert]; [constructor; constructor|].
  inversion S as [|? ? S1 S2]; subst. destruct (Z.leb_spec (compare_tokens a b) 0) as [L|L].
  - constructor; auto. constructor; auto. rewrite Forall_forall in *. intros x X. eapply compare_trans; eauto.
  - constructor; [apply IH; auto|]. rewrite Forall_forall in *. intros x X.
    apply (Permutation_in _ (Permutation_sym (insert_perm a l))) in X. destruct X as [<-|X]; [|auto].
    apply compare_spec. assert (~ (before a b \/ pos a = pos b)) as N by (rewrite <- compare_spec; lia).
    unfold before, pos in *. destruct (Z.eq_dec (s_line a) (s_line b)); destruct (Z.eq_dec (s_col a) (s_col b)); [exfalso; apply N; right; congruence|left; lia|left; lia|left; lia].
Qed.
Lemma sort_ok l : qsorted l (sort l).
Proof.
  unfold qsorted, sort. induction l as [|a l [P S]]; cbn [fold_right]; [split; constructor|]. split.
  - rewrite P at 1. apply insert_perm.
  - apply insert_sorted; auto.
Qed.
