From Verif Require Import Common Enum_Model Enum_Spec.
Local Open Scope Z_scope.

Lemma until_app a b : ~ In 95%N a -> until_under (a ++ 95%N :: b) = a.
Proof.
  induction a as [|c a IH]; intros H; cbn [app until_under]; [reflexivity|].
  destruct (N.eqb_spec c 95) as [->|_]; [destruct H; now left|]. f_equal. apply IH. intros X. apply H. now right.
Qed.
Lemma suffix_mangle e v : no_under v -> suffix (mangle e v) = v.
Proof.
  intros H. unfold suffix, mangle. change (under ++ v) with (95%N :: v). rewrite rev_app_distr. cbn [rev]. rewrite <- app_assoc. cbn [app].
  rewrite until_app; [apply rev_involutive|]. intros X. apply in_rev in X. contradiction.
Qed.
Lemma mangle_inj e v e' v' : no_under v -> no_under v' -> mangle e v = mangle e' v' -> e = e' /\ v = v'.
Proof.
  intros H H' E. assert (V : v = v') by (rewrite <- (suffix_mangle e v H), <- (suffix_mangle e' v' H'); now rewrite E).
  subst v'. split; [|reflexivity]. unfold mangle in E. now apply app_inv_tail in E.
Qed.

Lemma reg_snoc en : forall l v reg, reg_variants en v l reg = reg_variants en v l [] ++ reg.
Proof.
  induction l as [|x l IH]; intros v reg; cbn [reg_variants]; [reflexivity|]. rewrite IH. symmetry. rewrite IH. now rewrite <- app_assoc.
Qed.
Lemma register_app a b : register (a ++ b) = register b ++ register a.
Proof.
  unfold register. rewrite fold_left_app. generalize (fold_left (fun reg e => reg_variants (ename e) 0 (variants e) reg) a []). revert a.
  induction b as [|e b IH]; intros a r; cbn [fold_left]; [reflexivity|]. rewrite (IH a). symmetry. rewrite (IH a (reg_variants _ _ _ [])).
  rewrite (reg_snoc _ _ _ r). now rewrite <- app_assoc.
Qed.
Lemma find_app a b p : find_variant (a ++ b) p = match find_variant a p with Some x => Some x | None => find_variant b p end.
Proof. induction a as [|[[en m] t] a IH]; cbn [app find_variant]; [reflexivity|]. destruct (beq_bytes m p); [reflexivity|apply IH]. Qed.

(** the tags of one enum *)
Lemma find_one en p : no_under p -> forall l v, (forall x, In x l -> explicit x = None /\ no_under (vname x)) -> NoDup (map vname l) ->
  find_variant (reg_variants en v l []) (mangle en p) = match position l p with Some (k, _) => Some (en, v + k) | None => None end.
Proof.
  intros P. induction l as [|x l IH]; intros v H D; cbn [reg_variants position find_variant]; [reflexivity|].
  rewrite reg_snoc, find_app. destruct (H x (or_introl eq_refl)) as (X1 & X2). rewrite X1. cbn [map] in D. apply NoDup_cons_iff in D. destruct D as (D1 & D2).
  rewrite IH by (auto; intros y Y; apply H; now right). cbn [find_variant].
  destruct (beq_bytes (vname x) p) eqn:B.
  - apply beq_bytes_true in B. subst p.
    assert (N : position l (vname x) = None).
    { clear -D1. induction l as [|y l IH]; cbn [position]; [reflexivity|]. cbn [map In] in D1.
      destruct (beq_bytes (vname y) (vname x)) eqn:E. { apply beq_bytes_true in E. destruct D1. now left. } rewrite IH; auto. }
    rewrite N, beq_bytes_refl. f_equal. f_equal. lia.
  - assert (M : beq_bytes (mangle en (vname x)) (mangle en p) = false).
    { destruct (beq_bytes (mangle en (vname x)) (mangle en p)) eqn:E; [|reflexivity]. apply beq_bytes_true in E. apply mangle_inj in E; auto. destruct E as (_ & E).
      rewrite E, beq_bytes_refl in B. discriminate. }
    rewrite M. destruct (position l p) as [[k y]|]; [|reflexivity]. f_equal. f_equal. lia.
Qed.
Lemma find_other en en' p : no_under p -> en <> en' -> forall l v, (forall x, In x l -> no_under (vname x)) ->
  find_variant (reg_variants en v l []) (mangle en' p) = None.
Proof.
  intros P D. induction l as [|x l IH]; intros v H; cbn [reg_variants find_variant]; [reflexivity|].
  rewrite reg_snoc, find_app, IH by (intros y Y; apply H; now right). cbn [find_variant].
  destruct (beq_bytes (mangle en (vname x)) (mangle en' p)) eqn:E; [|reflexivity]. apply beq_bytes_true in E. apply mangle_inj in E; auto. { tauto. } apply H. now left.
Qed.
Lemma plain_tail e es : plain (e :: es) -> plain es.
Proof. intros (D & H). cbn [map] in D. apply NoDup_cons_iff in D. split; [tauto|]. intros x X. apply H. now right. Qed.
Lemma find_all es : plain es -> forall e p, In e es -> no_under p ->
  find_variant (register es) (mangle (ename e) p) = match position (variants e) p with Some (k, _) => Some (ename e, k) | None => None end.
Proof.
  induction es as [|e0 es IH]; intros Pl e p I0 P; [destruct I0|]. change (e0 :: es) with ([e0] ++ es). rewrite register_app, find_app.
  pose proof Pl as (D & H). cbn [map] in D. apply NoDup_cons_iff in D. destruct D as (D1 & D2).
  assert (One : forall q, register [q] = reg_variants (ename q) 0 (variants q) []) by reflexivity. rewrite One.
  destruct I0 as [-> | I0].
  - assert (N : find_variant (register es) (mangle (ename e) p) = None).
    { clear IH One. assert (G : forall x, In x es -> ename e <> ename x /\ forall y, In y (variants x) -> no_under (vname y)).
      { intros x X. split. { intros Q. apply D1. rewrite Q. now apply in_map. } intros y Y. now apply (H x (or_intror X)). }
      clear -P G. induction es as [|x es IH]; [reflexivity|]. change (x :: es) with ([x] ++ es). rewrite register_app, find_app, IH by (intros y Y; apply G; now right).
      destruct (G x (or_introl eq_refl)) as (G1 & G2). change (register [x]) with (reg_variants (ename x) 0 (variants x) []). apply find_other; auto. }
    rewrite N. destruct (H e (or_introl eq_refl)) as (H1 & H2). rewrite find_one by auto. destruct (position (variants e) p) as [[k y]|]; [|reflexivity]. f_equal.
  - rewrite (IH (plain_tail _ _ Pl) e p I0 P).
    destruct (position (variants e) p) as [[k y]|] eqn:Q; [reflexivity|].
    apply find_other; auto.
    + intros X. apply D1. rewrite X. now apply in_map.
    + intros x X. now apply (H e0 (or_introl eq_refl)).
Qed.

Lemma position_in l : forall p k x, position l p = Some (k, x) -> In x l /\ vname x = p /\ 0 <= k.
Proof.
  induction l as [|y l IH]; intros p k x; cbn [position]; [discriminate|]. destruct (beq_bytes (vname y) p) eqn:E.
  - intros Q. injection Q as <- <-. apply beq_bytes_true in E. splits; auto; [now left|lia].
  - destruct (position l p) as [[j z]|] eqn:P; [|discriminate]. intros Q. injection Q as <- <-. destruct (IH _ _ _ P) as (A & B & C). splits; auto; [now right|lia].
Qed.
Lemma position_some l p : In p (map vname l) -> exists k x, position l p = Some (k, x).
Proof.
  induction l as [|y l IH]; cbn [map In position]; [tauto|]. destruct (beq_bytes (vname y) p) eqn:E; [eauto|].
  intros [<- | I0]; [rewrite beq_bytes_refl in E; discriminate|]. destruct (IH I0) as (k & x & ->). eauto.
Qed.
Lemma position_inj l : forall p q k x y, position l p = Some (k, x) -> position l q = Some (k, y) -> p = q.
Proof.
  induction l as [|z l IH]; intros p q k x y; cbn [position]; [discriminate|].
  destruct (beq_bytes (vname z) p) eqn:E1; destruct (beq_bytes (vname z) q) eqn:E2.
  - intros _ _. apply beq_bytes_true in E1, E2. congruence.
  - intros A. injection A as <- <-. destruct (position l q) as [[j w]|] eqn:Q; [|discriminate]. intros B. injection B as B _. apply position_in in Q. lia.
  - destruct (position l p) as [[j w]|] eqn:Q; [|discriminate]. intros B A. injection A as <- <-. injection B as B _. apply position_in in Q. lia.
  - destruct (position l p) as [[j w]|] eqn:Q; [|discriminate]. destruct (position l q) as [[j' w']|] eqn:Q'; [|discriminate]. intros A B. injection A as <- <-. injection B as B _.
    replace j' with j in Q' by lia. eauto.
Qed.
Lemma position_nodup l x : NoDup (map vname l) -> In x l -> exists k, position l (vname x) = Some (k, x).
Proof.
  induction l as [|y l IH]; [intros _ []|]. cbn [map In position]. intros D I0. apply NoDup_cons_iff in D. destruct D as (D1 & D2).
  destruct I0 as [-> | I0]. { rewrite beq_bytes_refl. eauto. }
  destruct (beq_bytes (vname y) (vname x)) eqn:E. { apply beq_bytes_true in E. destruct D1. rewrite E. now apply in_map. }
  destruct (IH D2 I0) as (k & ->). eauto.
Qed.

Section P.
Variable T : Type.

Lemma fits_ok es e k x (v : value T) a : plain es -> In e es -> position (variants e) (vname x) = Some (k, x) -> tag v = k -> good_arm e a ->
  (fits T (register es) v a = true <-> is_for (ename e) (vname x) a).
Proof.
  intros Pl Ie Px Tv G. destruct a as [|alts n]; cbn [fits is_for]; [tauto|]. destruct G as (G & _).
  assert (Nu : forall w, In w (map vname (variants e)) -> no_under w).
  { intros w W. apply in_map_iff in W. destruct W as (y & <- & Y). now apply (proj2 Pl e Ie). }
  rewrite existsb_exists. split.
  - intros ([en w] & I0 & F). cbn [fst snd] in F. destruct (G en w I0) as (-> & W). rewrite (find_all es Pl e w Ie (Nu w W)) in F.
    destruct (position (variants e) w) as [[j y]|] eqn:Q; [|discriminate]. apply Z.eqb_eq in F. rewrite Tv in F. subst j. rewrite (position_inj _ _ _ _ _ _ Px Q). exact I0.
  - intros I0. exists (ename e, vname x). split; auto. cbn [fst snd]. destruct (G _ _ I0) as (_ & W). rewrite (find_all es Pl e _ Ie (Nu _ W)), Px. apply Z.eqb_eq. exact Tv.
Qed.

Lemma compile_ok es e a : plain es -> In e es -> good_arm e a -> arm_compiles (register es) e a = Ok tt.
Proof.
  intros Pl Ie G. destruct a as [|alts n]; cbn [arm_compiles]; [reflexivity|]. destruct G as (G & B).
  assert (Nu : forall w, In w (map vname (variants e)) -> no_under w).
  { intros w W. apply in_map_iff in W. destruct W as (y & <- & Y). now apply (proj2 Pl e Ie). }
  assert (F : forallb (fun a => match find_variant (register es) (mangle (fst a) (snd a)) with Some _ => true | None => false end) alts = true).
  { apply forallb_forall. intros [en w] I0. cbn [fst snd]. destruct (G en w I0) as (-> & W). rewrite (find_all es Pl e w Ie (Nu w W)).
    destruct (position_some _ _ W) as (k & x & ->). reflexivity. }
  rewrite F. destruct n as [|n]; [reflexivity|]. destruct B as [B | (L & x & Ix & -> & P & B)]; [discriminate|].
  destruct (Nat.ltb_spec 8 (S n)); [lia|]. rewrite suffix_mangle by (apply Nu; now apply in_map).
  unfold member_ok. destruct (position_nodup (variants e) x (proj1 (proj2 Pl e Ie)) Ix) as (k & ->).
  destruct (Nat.ltb_spec 0 (payload x)); [|lia]. cbn [andb].
  destruct (Nat.eqb_spec (S n) 1); [reflexivity|]. cbn [orb]. destruct (Nat.leb_spec 2 (payload x)); [|lia]. destruct (Nat.leb_spec (S n) (payload x)); [reflexivity|lia].
Qed.

Lemma all_compile_ok es e l : plain es -> In e es -> Forall (good_arm e) l -> all_compile (register es) e l = Ok tt.
Proof.
  intros Pl Ie. induction 1 as [|a l G F IH]; cbn [all_compile]; [reflexivity|]. rewrite (compile_ok es e a) by auto. exact IH.
Qed.

Lemma bind_ok es e x xs k a : plain es -> In e es -> In x (variants e) -> length xs = payload x -> good_arm e a -> is_for (ename e) (vname x) a ->
  bind_values T (Val k (match xs with [] => None | _ => Some (vname x, xs) end)) a = Ok (bound_to T xs a).
Proof.
  intros Pl Ie Ix L G F. destruct a as [|alts n]; [reflexivity|]. destruct n as [|n]; [reflexivity|]. destruct G as (G & [B | (L8 & y & Iy & -> & P & B)]); [discriminate|].
  cbn [is_for] in F. destruct F as [F | []]. injection F as F.
  assert (Y : y = x).
  { destruct (position_nodup (variants e) y (proj1 (proj2 Pl e Ie)) Iy) as (j & Q). destruct (position_nodup (variants e) x (proj1 (proj2 Pl e Ie)) Ix) as (j' & Q').
    rewrite F in Q. congruence. }
  subst y. cbn [bind_values member]. destruct xs as [|z xs]; [cbn [length] in L; lia|].
  rewrite suffix_mangle by now apply (proj2 Pl e Ie). rewrite beq_bytes_refl. destruct n; reflexivity.
Qed.

Lemma chosen_det en v (xs : list T) l : forall r r', chosen T en v xs l r -> chosen T en v xs l r' -> r = r'.
Proof.
  induction l as [|a l IH]; intros r r' A B; inversion A; inversion B; subst; auto; try contradiction; try (now rewrite (IH _ _ H4 H9)).
  - assert (Some (k, b) = Some (k0, b0)) as Q by (eapply IH; eauto). injection Q as -> ->. reflexivity.
  - assert (Some (k, b) = None) as Q by (eapply IH; eauto). discriminate.
  - assert (None = Some (k, b)) as Q by (eapply IH; eauto). discriminate.
Qed.

Lemma select_ok es e x xs k l : plain es -> In e es -> In x (variants e) -> position (variants e) (vname x) = Some (k, x) -> length xs = payload x ->
  Forall (good_arm e) l -> forall n, exists r, chosen T (ename e) (vname x) xs l r /\
  select T (register es) (Val k (match xs with [] => None | _ => Some (vname x, xs) end)) n l = Ok (match r with Some (i, b) => Some ((n + i)%nat, b) | None => None end).
Proof.
  intros Pl Ie Ix Px L F. induction F as [|a l G F IH]; intros n; cbn [select].
  - exists None. split; [constructor|reflexivity].
  - set (v := Val k (match xs with [] => None | _ => Some (vname x, xs) end)) in *.
    pose proof (fits_ok es e k x v a Pl Ie Px eq_refl G) as FT.
    destruct (fits T (register es) v a) eqn:Q.
    + exists (Some (0%nat, bound_to T xs a)). split; [constructor; now apply FT|]. unfold v. rewrite (bind_ok es e x xs k a) by (auto; now apply FT). cbn [bind]. do 3 f_equal. lia.
    + assert (NF : ~ is_for (ename e) (vname x) a) by (intros X; apply FT in X; discriminate).
      destruct (IH (S n)) as (r & C & E). destruct r as [[i b]|].
      * exists (Some (S i, b)). split; [now constructor|]. rewrite E. do 3 f_equal. lia.
      * exists None. split; [now constructor|]. exact E.
Qed.
End P.
