From Verif Require Import Common Pratt_Model Pratt_Spec.
Local Open Scope nat_scope.

(** * More fuel does not change an answer *)
Definition le_out {A} (x y : out A) : Prop := x = Fuel \/ x = y.
Lemma le_refl {A} (x : out A) : le_out x x.
Proof. now right. Qed.
Lemma le_fuel {A} (y : out A) : le_out Fuel y.
Proof. now left. Qed.
Lemma le_bind {A B} (x y : out A) (k k' : A -> out B) :
  le_out x y -> (forall a, le_out (k a) (k' a)) -> le_out (obind x k) (obind y k').
Proof.
  intros [-> | ->] H; [left; reflexivity|].
  destruct y; cbn; auto; now right.
Qed.
Lemma le_got {A} (x y : out A) v : le_out x y -> x = Got v -> y = Got v.
Proof. intros [H | H] E; congruence. Qed.

Section Proofs.
Variable type_list : list tok -> bool.
Notation parse := (parse type_list).
Notation primary := (primary type_list).
Notation suffixes := (suffixes type_list).
Notation arguments := (arguments type_list).
Notation arguments1 := (arguments1 type_list).
Notation loop := (loop type_list).

Lemma parse_S f min ts : parse (S f) min ts = parse_body (parse f) (primary f) (loop f) min ts.
Proof. reflexivity. Qed.
Lemma primary_S f ts : primary (S f) ts = primary_body type_list (parse f) (suffixes f) ts.
Proof. reflexivity. Qed.
Lemma suffixes_S f e ts : suffixes (S f) e ts = suffixes_body (parse f) (suffixes f) (arguments f) e ts.
Proof. reflexivity. Qed.
Lemma arguments_S f ts : arguments (S f) ts = arguments_body (arguments1 f) ts.
Proof. reflexivity. Qed.
Lemma arguments1_S f ts : arguments1 (S f) ts = arguments1_body (parse f) (arguments1 f) ts.
Proof. reflexivity. Qed.
Lemma loop_S f min e ts : loop (S f) min e ts = loop_body type_list (parse f) (arguments f) (loop f) min e ts.
Proof. reflexivity. Qed.

Definition le_all (f g : nat) : Prop :=
  (forall min ts, le_out (parse f min ts) (parse g min ts)) /\
  (forall ts, le_out (primary f ts) (primary g ts)) /\
  (forall e ts, le_out (suffixes f e ts) (suffixes g e ts)) /\
  (forall ts, le_out (arguments f ts) (arguments g ts)) /\
  (forall ts, le_out (arguments1 f ts) (arguments1 g ts)) /\
  (forall min e ts, le_out (loop f min e ts) (loop g min e ts)).

Ltac step_out I1 I2 I3 I4 I5 I6 :=
  lazymatch goal with
  | |- le_out Fuel _ => apply le_fuel
  | |- le_out Err Err => apply le_refl
  | |- le_out Other Other => apply le_refl
  | |- le_out (Got _) (Got _) => apply le_refl
  | |- le_out (obind _ _) (obind _ _) => apply le_bind; [|intros [? ?]]
  | |- le_out (Pratt_Model.parse _ _ _ _) _ => apply I1
  | |- le_out (Pratt_Model.primary _ _ _) _ => apply I2
  | |- le_out (Pratt_Model.suffixes _ _ _ _) _ => apply I3
  | |- le_out (Pratt_Model.arguments _ _ _) _ => apply I4
  | |- le_out (Pratt_Model.arguments1 _ _ _) _ => apply I5
  | |- le_out (Pratt_Model.loop _ _ _ _ _) _ => apply I6
  | |- le_out (match ?x with _ => _ end) _ => destruct x
  end.

Lemma mono_all f g : le_all f g -> le_all (S f) (S g).
Proof.
  intros (I1 & I2 & I3 & I4 & I5 & I6). unfold le_all. splits; intros.
  - rewrite !parse_S. unfold parse_body. repeat step_out I1 I2 I3 I4 I5 I6.
  - rewrite !primary_S. unfold primary_body. repeat step_out I1 I2 I3 I4 I5 I6.
  - rewrite !suffixes_S. unfold suffixes_body. repeat step_out I1 I2 I3 I4 I5 I6.
  - rewrite !arguments_S. unfold arguments_body. repeat step_out I1 I2 I3 I4 I5 I6.
  - rewrite !arguments1_S. unfold arguments1_body. repeat step_out I1 I2 I3 I4 I5 I6.
  - rewrite !loop_S. unfold loop_body. repeat step_out I1 I2 I3 I4 I5 I6.
Qed.

Lemma mono f g : f <= g -> le_all f g.
Proof.
  revert g. induction f as [|f IH]; intros [|g] H; try lia.
  - unfold le_all. splits; intros; apply le_refl.
  - unfold le_all. splits; intros; apply le_fuel.
  - apply mono_all, IH. lia.
Qed.

(** * Enough fuel *)
Definition got_le {A} (n : nat) (x : out (A * list tok)) : Prop :=
  match x with Got (_, r) => length r <= n | Fuel => False | _ => True end.
Lemma got_bind {A B} (x : out (A * list tok)) (k : A * list tok -> out (B * list tok)) n m :
  got_le n x -> (forall a r, length r <= n -> got_le m (k (a, r))) -> got_le m (obind x k).
Proof. destruct x as [[a r]| | |]; cbn; auto. Qed.
Lemma got_weaken {A} n m (x : out (A * list tok)) : got_le n x -> n <= m -> got_le m x.
Proof. destruct x as [[a r]| | |]; cbn; auto; lia. Qed.

Definition enough (n f : nat) : Prop :=
  (forall min ts, length ts = n -> 4 * n + 2 <= f -> got_le (n - 1) (parse f min ts)) /\
  (forall ts, length ts = n -> 4 * n + 1 <= f -> got_le (n - 1) (primary f ts)) /\
  (forall e ts, length ts = n -> 4 * n + 1 <= f -> got_le n (suffixes f e ts)) /\
  (forall ts, length ts = n -> 4 * n + 4 <= f -> got_le (n - 1) (arguments f ts)) /\
  (forall ts, length ts = n -> 4 * n + 3 <= f -> got_le (n - 1) (arguments1 f ts)) /\
  (forall min e ts, length ts = n -> 4 * n + 1 <= f -> got_le n (loop f min e ts)).

Lemma cast_stars_length ts n k r : cast_stars ts n = Some (k, r) -> length r < length ts.
Proof.
  revert n. induction ts as [|t ts IH]; intros n H; [discriminate|].
  destruct t as [ | |[] ?| | | | | | | | | | | | | | | | | | | | | | | ]; cbn in H; try discriminate.
  - apply IH in H. cbn. lia.
  - injection H as <- <-. cbn. lia.
Qed.
Lemma cast_look_length ts x k r : cast_look ts = Some (x, k, r) -> length r < length ts.
Proof.
  destruct ts as [|t ts]; [discriminate|]. destruct t; try discriminate. cbn [cast_look].
  destruct (cast_stars ts 0) as [[k' r']|] eqn:E; [|discriminate].
  destruct (starts_cast_operand r'); intros H; [|discriminate]. injection H as _ _ ->.
  apply cast_stars_length in E. cbn. lia.
Qed.
Lemma field_length ts x r : field ts = Some (x, r) -> length r < length ts.
Proof. destruct ts as [|t ts]; [discriminate|]. destruct t; cbn; intros H; inversion H; subst; cbn; lia. Qed.
Lemma head_op_length ts o r : head_op ts = Some (o, r) -> length ts = S (length r).
Proof. destruct ts as [|t ts]; [discriminate|]. destruct t; cbn; intros H; inversion H; subst; cbn; lia. Qed.

Ltac fin := cbn [got_le length] in *; try exact I; try lia.
Lemma enough_all f : forall n, enough n f.
Proof.
  induction f as [|f IH]; intros n.
  { unfold enough. splits; intros; lia. }
  assert (J1 : forall m min ts, length ts <= m -> 4 * m + 2 <= f -> got_le (length ts - 1) (parse f min ts))
    by (intros; apply (IH (length ts)); lia).
  assert (J2 : forall m ts, length ts <= m -> 4 * m + 1 <= f -> got_le (length ts - 1) (primary f ts))
    by (intros; apply (IH (length ts)); lia).
  assert (J3 : forall m e ts, length ts <= m -> 4 * m + 1 <= f -> got_le (length ts) (suffixes f e ts))
    by (intros; apply (IH (length ts)); lia).
  assert (J4 : forall m ts, length ts <= m -> 4 * m + 4 <= f -> got_le (length ts - 1) (arguments f ts))
    by (intros; apply (IH (length ts)); lia).
  assert (J5 : forall m ts, length ts <= m -> 4 * m + 3 <= f -> got_le (length ts - 1) (arguments1 f ts))
    by (intros; apply (IH (length ts)); lia).
  assert (J6 : forall m min e ts, length ts <= m -> 4 * m + 1 <= f -> got_le (length ts) (loop f min e ts))
    by (intros; apply (IH (length ts)); lia).
  clear IH. unfold enough. splits; intros.
  - rewrite parse_S. unfold parse_body. destruct (head_op ts) as [[o r]|] eqn:E.
    + apply head_op_length in E. destruct (prefix_op o) as [u|]; [|destruct o; fin].
      eapply got_bind; [apply (J1 (n - 1)); lia|]. intros e r1 L.
      eapply got_weaken; [apply (J6 (n - 1))|]; lia.
    + eapply got_bind; [apply (J2 n); lia|]. intros e r1 L.
      eapply got_weaken; [apply (J6 n)|]; lia.
  - rewrite primary_S. unfold primary_body. destruct ts as [|t r]; [fin|]. cbn [length] in *.
    destruct (start_of t); fin.
    + eapply got_weaken; [apply (J3 (n - 1))|]; lia.
    + destruct (var_other type_list r); fin. eapply got_weaken; [apply (J3 (n - 1))|]; lia.
    + destruct (lambda_look true false r); fin. destruct (path_next r); fin.
      destruct (cast_look r) as [[[x k] r']|] eqn:E.
      * apply cast_look_length in E. eapply got_bind; [apply (J1 (n - 1)); lia|]. intros e r1 L. fin.
      * eapply got_bind; [apply (J1 (n - 1)); lia|]. intros e r1 L. destruct r1 as [|t1 r2]; fin.
        destruct t1; fin. cbn [length] in L. eapply got_weaken; [apply (J3 (n - 1))|]; lia.
  - rewrite suffixes_S. unfold suffixes_body. destruct ts as [|t r]; [fin|]. cbn [length] in *.
    destruct t; fin.
    + eapply got_bind; [apply (J4 (n - 1)); lia|]. intros a r1 L. eapply got_weaken; [apply (J3 (n - 1))|]; lia.
    + eapply got_bind; [apply (J1 (n - 1)); lia|]. intros a r1 L. destruct r1 as [|t1 r2]; fin.
      destruct t1; fin. cbn [length] in L. eapply got_weaken; [apply (J3 (n - 1))|]; lia.
  - rewrite arguments_S. unfold arguments_body. destruct ts as [|t r].
    + subst n. eapply got_weaken; [apply (J5 0)|]; cbn; lia.
    + destruct t; try (eapply got_weaken; [apply (J5 n)|]; lia). fin.
  - rewrite arguments1_S. unfold arguments1_body. destruct (named_arg ts); fin.
    eapply got_bind; [apply (J1 n); lia|]. intros a r1 L. destruct r1 as [|t1 r2]; fin.
    destruct t1; fin. cbn [length] in L.
    eapply got_bind; [apply (J5 (n - 1)); lia|]. intros l r3 L3. fin.
  - rewrite loop_S. unfold loop_body. destruct ts as [|t r]; [fin|]. cbn [length] in *.
    destruct (newline_break t); [fin|].
    destruct (loop_kind_of t); try (eapply got_weaken; [apply (J6 (n - 1))|]; lia);
      (destruct (stop min t); [fin|]).
    + destruct (field r) as [[x r1]|] eqn:E; fin. apply field_length in E.
      eapply got_weaken; [apply (J6 (n - 1))|]; lia.
    + destruct (starts_ternary r).
      * destruct (PREC_TERNARY <? min); [fin|].
        eapply got_bind; [apply (J1 (n - 1)); lia|]. intros a r1 L. destruct r1 as [|t1 r2]; fin.
        destruct t1; fin. cbn [length] in L.
        eapply got_bind; [apply (J1 (n - 1)); lia|]. intros b r3 L3.
        eapply got_weaken; [apply (J6 (n - 1))|]; lia.
      * destruct (PREC_CALL <? min); [fin|]. eapply got_weaken; [apply (J6 (n - 1))|]; lia.
    + eapply got_bind; [apply (J1 (n - 1)); lia|]. intros a r1 L. eapply got_weaken; [apply (J6 (n - 1))|]; lia.
    + eapply got_bind; [apply (J4 (n - 1)); lia|]. intros a r1 L. eapply got_weaken; [apply (J6 (n - 1))|]; lia.
    + destruct (dotdot_next r); fin.
      eapply got_bind; [apply (J1 (n - 1)); lia|]. intros a r1 L. destruct r1 as [|t1 r2]; fin.
      destruct t1; fin. cbn [length] in L. eapply got_weaken; [apply (J6 (n - 1))|]; lia.
    + destruct (field r) as [[x r1]|] eqn:E; fin. apply field_length in E.
      destruct (generic_next type_list r1); fin. eapply got_weaken; [apply (J6 (n - 1))|]; lia.
    + eapply got_bind; [apply (J1 (n - 1)); lia|]. intros a r1 L. destruct (mk_binary t e a); fin.
      eapply got_weaken; [apply (J6 (n - 1))|]; lia.
Qed.

Lemma parse_enough min ts : got_le (length ts - 1) (parse (4 * length ts + 2) min ts).
Proof. apply (enough_all (4 * length ts + 2) (length ts)); lia. Qed.
Lemma parse_top f min ts v : parse f min ts = Got v -> parse (4 * length ts + 2) min ts = Got v.
Proof.
  intros H. destruct (Nat.le_ge_cases f (4 * length ts + 2)) as [L|L].
  - destruct (mono _ _ L) as [M _]. eapply le_got; eauto.
  - destruct (mono _ _ L) as [M _]. destruct (M min ts) as [E|E]; [|congruence].
    pose proof (parse_enough min ts) as P. rewrite E in P. destruct P.
Qed.
End Proofs.
