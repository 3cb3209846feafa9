(** C109: enums and match on them. *)
From Verif Require Import Common Enum_Model Enum_Spec Enum_Proofs.
Local Open Scope Z_scope.

(** A match on a value made by a constructor runs the first arm for its variant (or the wildcard), and binds the values the constructor was given.  Missing: explicit values, names with underscores, enums of one name in several modules, more than eight bindings, guards (C65). *)
Theorem C109_match_partial : forall T es e x (xs : list T) v arms,
  plain es -> In e es -> In x (variants e) -> construct T e (vname x) xs = Ok v -> Forall (good_arm e) arms ->
  exists r, run_match T es e arms v = Ok r /\ chosen T (ename e) (vname x) xs arms r.
Proof.
  intros T es e x xs v arms Pl Ie Ix C F. unfold construct in C.
  destruct (position_nodup (variants e) x (proj1 (proj2 Pl e Ie)) Ix) as (k & Px). rewrite Px in C.
  destruct (Nat.eqb_spec (length xs) (payload x)) as [L|L]; [|discriminate]. injection C as <-.
  destruct (select_ok T es e x xs k arms Pl Ie Ix Px L F 0) as (r & Ch & S). exists r. split; [|exact Ch].
  unfold run_match. rewrite all_compile_ok by auto. cbn [bind]. rewrite S. destruct r as [[i b]|]; reflexivity.
Qed.
Print Assumptions C109_match_partial.

Definition shape := E None (bs "Shape") [V (bs "Point") None 0; V (bs "Circle") None 1; V (bs "Rect") None 2].
Definition color := E None (bs "Color") [V (bs "Red") None 0; V (bs "Circle") None 0].
Definition xarms := [Pat [(bs "Shape", bs "Point"); (bs "Shape", bs "Circle")] 0; Pat [(bs "Shape", bs "Rect")] 2].
Lemma nodup_dec (l : list bytes) : (fix nd l := match l with [] => true | x :: l => negb (existsb (beq_bytes x) l) && nd l end) l = true -> NoDup l.
Proof.
  induction l as [|x l IH]; [constructor|]. intros H. apply andb_true_iff in H. destruct H as (H1 & H2). constructor; auto.
  intros X. apply negb_true_iff in H1. assert (existsb (beq_bytes x) l = true) by (apply existsb_exists; exists x; split; auto; apply beq_bytes_refl). congruence.
Qed.
Lemma under_dec n : existsb (N.eqb 95) n = false -> no_under n.
Proof. intros H X. assert (existsb (N.eqb 95) n = true) by (apply existsb_exists; exists 95%N; auto). congruence. Qed.
Example xplain : plain [shape; color].
Proof.
  split; [apply nodup_dec; vm_compute; reflexivity|]. intros e [<-|[<-|[]]].
  - split; [apply nodup_dec; vm_compute; reflexivity|]. intros x [<-|[<-|[<-|[]]]]; (split; [reflexivity|apply under_dec; vm_compute; reflexivity]).
  - split; [apply nodup_dec; vm_compute; reflexivity|]. intros x [<-|[<-|[]]]; (split; [reflexivity|apply under_dec; vm_compute; reflexivity]).
Qed.
Example C109_match_used : Forall (good_arm shape) xarms /\ construct Z shape (bs "Rect") [3; 4] = Ok (Val 2 (Some (bs "Rect", [3; 4])))
  /\ run_match Z [shape; color] shape xarms (Val 2 (Some (bs "Rect", [3; 4]))) = Ok (Some (1%nat, [[3]; [4]])).
Proof.
  splits; try (vm_compute; reflexivity). constructor; [|constructor; [|constructor]].
  - split; [|now left]. intros en v [X|[X|[]]]; injection X as <- <-; cbn; auto.
  - split. { intros en v [X|[]]; injection X as <- <-; cbn; auto. } right. split; [lia|]. exists (V (bs "Rect") None 2). cbn. splits; auto; lia.
Qed.

(** Different variants, or different payloads, are different values. *)
Theorem C109_constructor : forall T e v w (xs ys : list T) a, construct T e v xs = Ok a -> construct T e w ys = Ok a -> v = w /\ xs = ys.
Proof.
  intros T e v w xs ys a. unfold construct. destruct (position (variants e) v) as [[k x]|] eqn:P; [|discriminate]. destruct (position (variants e) w) as [[j y]|] eqn:Q; [|discriminate].
  destruct (_ =? _)%nat; [|discriminate]. intros A. injection A as <-. destruct (_ =? _)%nat; [|discriminate]. intros B. injection B as B1 B2. subst j.
  pose proof (position_inj _ _ _ _ _ _ P Q) as <-. split; [reflexivity|]. destruct xs, ys; try discriminate; auto. injection B2 as -> ->. reflexivity.
Qed.
Print Assumptions C109_constructor.
Example C109_constructor_used : construct Z shape (bs "Circle") [5] = Ok (Val 1 (Some (bs "Circle", [5]))). Proof. vm_compute. reflexivity. Qed.

(** A match with an arm for every variant has a value. *)
Theorem C109_total_partial : forall T es e x (xs : list T) v arms,
  plain es -> In e es -> In x (variants e) -> construct T e (vname x) xs = Ok v -> Forall (good_arm e) arms ->
  (forall y, In y (variants e) -> Exists (is_for (ename e) (vname y)) arms) ->
  exists r, run_match_expr T es e arms v = Ok r /\ chosen T (ename e) (vname x) xs arms (Some r).
Proof.
  intros T es e x xs v arms Pl Ie Ix C F H. destruct (C109_match_partial T es e x xs v arms Pl Ie Ix C F) as (r & R & Ch).
  specialize (H x Ix). destruct r as [r|].
  - exists r. split; auto. unfold run_match_expr. now rewrite R.
  - exfalso. clear -H Ch. induction H; inversion Ch; subst; auto.
Qed.
Print Assumptions C109_total_partial.
Example C109_total_used : forall y, In y (variants shape) -> Exists (is_for (bs "Shape") (vname y)) xarms.
Proof. intros y [<-|[<-|[<-|[]]]]; [left|left|right; left]; cbn; auto. Qed.

(** False: a match without a fitting arm, used for its value, has none; a warning is all. *)
Theorem C109_none_refuted : forall T es e x v, plain es -> In e es -> In x (variants e) -> construct T e (vname x) [] = Ok v ->
  run_match_expr T es e [] v = UB /\ forall y, In y (variants e) -> vname y <> vname x -> run_match_expr T es e [Pat [(ename e, vname y)] 0] v = UB.
Proof.
  intros T es e x v Pl Ie Ix C. split; [reflexivity|]. intros y Iy N.
  destruct (C109_match_partial T es e x [] v [Pat [(ename e, vname y)] 0] Pl Ie Ix C) as (r & R & Ch).
  { constructor; [|constructor]. split; [|now left]. intros en w [X|[]]. injection X as <- <-. split; auto. now apply in_map. }
  unfold run_match_expr. rewrite R. cbn [bind].
  inversion Ch as [|a l I0|a l k b N0 C0|]; subst; auto.
  - destruct I0 as [X|[]]. injection X as X. congruence.
  - inversion C0.
Qed.
Print Assumptions C109_none_refuted.
Example C109_none_used : run_match_expr Z [shape] shape [Pat [(bs "Shape", bs "Circle")] 1] (Val 0 None) = UB. Proof. vm_compute. reflexivity. Qed.

(** False: explicit values reach neither the C enum nor the table the patterns use, and shift the tags of the variants after them: a match then misses those variants. *)
Theorem C109_explicit_refuted : forall T en x k y (v : value T),
  let e := E None en [V x (Some k) 0; V y None 0] in
  x <> y -> no_under x -> no_under y -> k <> 0 -> construct T e y [] = Ok v ->
  run_match T [e] e [Pat [(en, y)] 0] v = Ok None
  /\ (k = -1 -> forall w, construct T e x [] = Ok w -> run_match T [e] e [Pat [(en, y)] 0] w = Ok (Some (0%nat, []))).
Proof.
  intros T en x k y v e Xy Nx Ny K. assert (B1 : beq_bytes x y = false). { destruct (beq_bytes x y) eqn:E; [|reflexivity]. apply beq_bytes_true in E. contradiction. }
  assert (R : register [e] = [(en, mangle en y, k + 1); (en, mangle en x, 0)]) by reflexivity.
  unfold construct, e. cbn [variants position vname payload length]. rewrite B1, !beq_bytes_refl. cbn [Nat.eqb].
  intros C. injection C as <-. split.
  - unfold run_match. fold e. rewrite R. cbn [all_compile arm_compiles forallb fst snd find_variant]. rewrite beq_bytes_refl. cbn [andb bind select fits existsb fst snd find_variant tag].
    rewrite beq_bytes_refl. destruct (Z.eqb_spec 1 (k + 1)); [lia|]. reflexivity.
  - intros -> w W. injection W as <-. unfold run_match. fold e. rewrite R. cbn [all_compile arm_compiles forallb fst snd find_variant]. rewrite beq_bytes_refl. cbn [andb bind select fits existsb fst snd find_variant tag].
    rewrite beq_bytes_refl. reflexivity.
Qed.
Print Assumptions C109_explicit_refuted.
Example C109_explicit_used :
  let e := E None (bs "Code") [V (bs "Ok") (Some 200) 0; V (bs "Created") None 0] in
  construct Z e (bs "Created") [] = Ok (Val 1 None) /\ run_match Z [e] e [Pat [(bs "Code", bs "Created")] 0] (Val 1 None) = Ok None.
Proof. split; vm_compute; reflexivity. Qed.

(** False: what is bound for a variant whose name has an underscore is the union member named after the last one: another variant's payload, or none. *)
Theorem C109_underscore_refuted : forall T en a b t,
  let e := E None en [V b None 1; V (a ++ under ++ b) None 1] in
  no_under b -> (0 < length a)%nat ->
  exists v, construct T e (a ++ under ++ b) [t] = Ok v /\ run_match T [e] e [Pat [(en, a ++ under ++ b)] 1] v = UB.
Proof.
  intros T en a b t e Nb La. set (ab := a ++ under ++ b).
  assert (D : forall p q : bytes, (length p < length q)%nat -> beq_bytes p q = false). { intros p q L. destruct (beq_bytes p q) eqn:E; [|reflexivity]. apply beq_bytes_true in E. subst. lia. }
  assert (Lab : (length b < length ab)%nat) by (unfold ab; rewrite !app_length; cbn; lia).
  exists (Val 1 (Some (ab, [t]))). split.
  - unfold construct, e. fold ab. cbn [variants position vname]. rewrite (D b ab Lab), beq_bytes_refl. reflexivity.
  - assert (R : register [e] = [(en, mangle en ab, 1); (en, mangle en b, 0)]) by reflexivity.
    assert (S : suffix (mangle en ab) = b).
    { unfold mangle, ab. rewrite app_assoc, app_assoc. replace (((en ++ under) ++ a) ++ under ++ b) with (mangle (en ++ under ++ a) b) by (unfold mangle; rewrite !app_assoc; reflexivity). now apply suffix_mangle. }
    unfold run_match. rewrite R. cbn [all_compile arm_compiles forallb fst snd find_variant]. rewrite beq_bytes_refl. cbn [andb]. change (8 <? 1)%nat with false. rewrite S.
    unfold member_ok, e. cbn [variants position vname]. rewrite beq_bytes_refl. cbn [payload Nat.ltb Nat.leb Nat.eqb andb orb bind select fits existsb fst snd find_variant tag].
    rewrite beq_bytes_refl. cbn [Z.eqb Pos.eqb orb bind_values member]. rewrite S.
    assert (X : beq_bytes ab b = false). { destruct (beq_bytes ab b) eqn:E; [|reflexivity]. apply beq_bytes_true in E. rewrite E in Lab. lia. }
    rewrite X. reflexivity.
Qed.
Print Assumptions C109_underscore_refuted.
Example C109_underscore_used :
  let e := E None (bs "E") [V (bs "Found") None 1; V (bs "Not_Found") None 1] in
  run_match Z [e] e [Pat [(bs "E", bs "Not_Found")] 1] (Val 1 (Some (bs "Not_Found", [7]))) = UB.
Proof. vm_compute. reflexivity. Qed.

(** False: enums of the same name in two modules share their patterns: the tags are those of the one read last. *)
Theorem C109_module_refuted : forall T p q en x y (v : value T), x <> y -> no_under x -> no_under y ->
  let e1 := E (Some p) en [V x None 0; V y None 0] in let e2 := E (Some q) en [V y None 0; V x None 0] in
  construct T e1 x [] = Ok v -> run_match T [e1; e2] e1 [Pat [(en, x)] 0; Wild] v = Ok (Some (1%nat, [])).
Proof.
  intros T p q en x y v Xy Nx Ny e1 e2 C. unfold construct, e1 in C. cbn [variants position vname] in C. rewrite beq_bytes_refl in C. cbn in C. injection C as <-.
  assert (R : exists r, register [e1; e2] = (en, mangle en x, 1) :: (en, mangle en y, 0) :: r) by (eexists; reflexivity). destruct R as (r & R).
  unfold run_match. rewrite R. cbn [all_compile arm_compiles forallb fst snd find_variant]. rewrite beq_bytes_refl. cbn [andb bind select fits existsb fst snd find_variant tag]. rewrite beq_bytes_refl. reflexivity.
Qed.
Print Assumptions C109_module_refuted.
Example C109_module_used : run_match Z [E (Some (bs "a")) (bs "Color") [V (bs "Red") None 0; V (bs "Blue") None 0]; E (Some (bs "b")) (bs "Color") [V (bs "Blue") None 0; V (bs "Red") None 0]]
  (E (Some (bs "a")) (bs "Color") [V (bs "Red") None 0; V (bs "Blue") None 0]) [Pat [(bs "Color", bs "Red")] 0; Pat [(bs "Color", bs "Blue")] 0] (Val 0 None) = Ok (Some (1%nat, [])).
Proof. vm_compute. reflexivity. Qed.

(** False: a pattern that names the module of an imported enum is not found, and the text does not compile. *)
Theorem C109_qualified_refuted : forall T p en x (v : value T), no_under x -> (0 < length p)%nat ->
  run_match T [E (Some p) en [V x None 0]] (E (Some p) en [V x None 0]) [Pat [(c_name (E (Some p) en [V x None 0]), x)] 0] v = Panic.
Proof.
  intros T p en x v Nx Lp. unfold run_match. change (register [E (Some p) en [V x None 0]]) with [(en, mangle en x, 0)].
  cbn [all_compile arm_compiles forallb fst snd find_variant c_name prefix ename].
  destruct (beq_bytes (mangle en x) (mangle (p ++ under ++ en) x)) eqn:E; [|reflexivity]. exfalso. apply beq_bytes_true in E.
  apply mangle_inj in E; auto. destruct E as (E & _). apply (f_equal (@length N)) in E. rewrite !app_length in E. cbn in E. lia.
Qed.
Print Assumptions C109_qualified_refuted.
Example C109_qualified_used : c_name (E (Some (bs "gfx")) (bs "Color") []) = bs "gfx_Color". Proof. vm_compute. reflexivity. Qed.

(** False: the ninth binding of an arm is written past an array. *)
Theorem C109_nine_refuted : forall T es e x (v : value T) n arms, plain es -> In e es -> In x (variants e) -> (8 < n)%nat -> run_match T es e (Pat [(ename e, vname x)] n :: arms) v = UB.
Proof.
  intros T es e x v n arms Pl Ie Ix N. unfold run_match. cbn [all_compile arm_compiles forallb fst snd].
  rewrite (find_all es Pl e (vname x) Ie) by now apply (proj2 Pl e Ie). destruct (position_nodup (variants e) x (proj1 (proj2 Pl e Ie)) Ix) as (k & ->). cbn [andb].
  destruct n; [lia|]. destruct (Nat.ltb_spec 8 (S n)); [reflexivity|lia].
Qed.
Print Assumptions C109_nine_refuted.
Example C109_nine_used : run_match Z [shape; color] shape [Pat [(bs "Shape", bs "Rect")] 9] (Val 0 None) = UB. Proof. vm_compute. reflexivity. Qed.

Lemma in_register es r : plain es -> In r (register es) -> exists e x k, In e es /\ In x (variants e) /\ position (variants e) (vname x) = Some (k, x) /\ r = (ename e, mangle (ename e) (vname x), k).
Proof.
  intros Pl I0. assert (G : exists e x, In e es /\ In x (variants e) /\ fst (fst r) = ename e /\ snd (fst r) = mangle (ename e) (vname x)).
  { clear Pl. revert I0. induction es as [|e es IH]; [intros []|]. change (e :: es) with ([e] ++ es). rewrite register_app. intros I0. apply in_app_or in I0. destruct I0 as [I0|I0].
    - destruct (IH I0) as (e' & x & A & B). exists e', x. split; [now right|auto].
    - change (register [e]) with (reg_variants (ename e) 0 (variants e) []) in I0. exists e.
      assert (Q : forall l v, In r (reg_variants (ename e) v l []) -> exists x, In x l /\ fst (fst r) = ename e /\ snd (fst r) = mangle (ename e) (vname x)).
      { clear. induction l as [|x l IH]; intros v; cbn [reg_variants]; [intros []|]. rewrite reg_snoc. intros H. apply in_app_or in H. destruct H as [H|[<-|[]]].
        - destruct (IH _ H) as (y & A & B). exists y. split; [now right|auto].
        - exists x. split; [now left|auto]. }
      destruct (Q _ _ I0) as (x & A & B). exists x. split; [now left|auto]. }
  destruct G as (e & x & Ie & Ix & A & B). destruct (position_nodup (variants e) x (proj1 (proj2 Pl e Ie)) Ix) as (k & Px). exists e, x, k. splits; auto.
  destruct r as [[en m] t]. cbn [fst snd] in A, B. subst en m. f_equal.
  (* the tag: there is one entry per text *)
  assert (Q : forall es, plain es -> In e es -> In (ename e, mangle (ename e) (vname x), t) (register es) -> t = k).
  { clear -Px Ix. induction es as [|e0 es IH]; [intros _ []|]. intros Pl Ie. change (e0 :: es) with ([e0] ++ es). rewrite register_app. intros I0. apply in_app_or in I0.
    pose proof Pl as (D & H). cbn [map] in D. apply NoDup_cons_iff in D. destruct D as (D1 & D2).
    assert (Nx : no_under (vname x)) by now apply (H e Ie).
    assert (Nm : forall l v en m tg, In (en, m, tg) (reg_variants (ename e0) v l []) -> en = ename e0 /\ exists y, In y l /\ m = mangle (ename e0) (vname y)).
    { clear. induction l as [|y l IH]; intros v en m tg; cbn [reg_variants]; [intros []|]. rewrite reg_snoc. intros H. apply in_app_or in H. destruct H as [H|[H|[]]].
      - destruct (IH _ _ _ _ H) as (A & z & B & C). split; auto. exists z. split; [now right|auto].
      - injection H as <- <- <-. split; auto. exists y. split; [now left|auto]. }
    destruct Ie as [-> | Ie].
    - destruct I0 as [I0|I0].
      + exfalso. assert (S : forall es, In (ename e, mangle (ename e) (vname x), t) (register es) -> In (ename e) (map ename es)).
        { clear. induction es as [|a es IH]; [intros []|]. change (a :: es) with ([a] ++ es). rewrite register_app. intros I0. apply in_app_or in I0. destruct I0 as [I0|I0]; [right; auto|].
          left. change (register [a]) with (reg_variants (ename a) 0 (variants a) []) in I0. revert I0. generalize 0 (variants a). intros v l. revert v. induction l as [|y l IH']; intros v; cbn [reg_variants]; [intros []|].
          rewrite reg_snoc. intros H. apply in_app_or in H. destruct H as [H|[H|[]]]; [eauto|]. now injection H as <- _ _. }
        auto.
      + change (register [e]) with (reg_variants (ename e) 0 (variants e) []) in I0. destruct (H e (or_introl eq_refl)) as (He1 & He2). clear IH D1 D2 Pl H Nm.
        assert (Q : forall l v, (forall y, In y l -> explicit y = None /\ no_under (vname y)) -> NoDup (map vname l) -> forall j, position l (vname x) = Some (j, x) ->
                  In (ename e, mangle (ename e) (vname x), t) (reg_variants (ename e) v l []) -> t = v + j).
        { clear -Nx. induction l as [|y l IH]; intros v H D j; cbn [position reg_variants]; [discriminate|]. rewrite reg_snoc. cbn [map] in D. apply NoDup_cons_iff in D. destruct D as (D1 & D2).
          destruct (H y (or_introl eq_refl)) as (Ey & Ny). rewrite Ey. intros P I0. apply in_app_or in I0.
          destruct (beq_bytes (vname y) (vname x)) eqn:B.
          - apply beq_bytes_true in B. injection P as <- ->. destruct I0 as [I0|[I0|[]]]; [|injection I0 as <-; lia]. exfalso.
            assert (Z : forall l v, (forall z, In z l -> no_under (vname z)) -> In (ename e, mangle (ename e) (vname x), t) (reg_variants (ename e) v l []) -> In (vname x) (map vname l)).
            { clear -Nx. induction l as [|z l IH]; intros v H; cbn [reg_variants]; [intros []|]. rewrite reg_snoc. intros I0. apply in_app_or in I0. destruct I0 as [I0|[I0|[]]].
              - right. eapply IH; eauto. intros w W. apply H. now right.
              - left. injection I0 as E _. apply mangle_inj in E; [now destruct E| |exact Nx]. apply H. now left. }
            apply D1. eapply Z; eauto. intros z Hz. apply H. now right.
          - destruct (position l (vname x)) as [[i z]|] eqn:P2; [|discriminate]. injection P as <- ->. destruct I0 as [I0|[I0|[]]].
            + rewrite (IH (v + 1) (fun z Hz => H z (or_intror Hz)) D2 i eq_refl I0). lia.
            + injection I0 as E _. apply mangle_inj in E; auto. destruct E as (_ & E). rewrite E, beq_bytes_refl in B. discriminate. }
        rewrite (Q (variants e) 0 He2 He1 k Px I0). lia.
    - destruct I0 as [I0|I0]; [apply IH; auto; eapply plain_tail; eauto|]. exfalso. change (register [e0]) with (reg_variants (ename e0) 0 (variants e0) []) in I0.
      destruct (Nm _ _ _ _ _ I0) as (A & _). apply D1. rewrite <- A. now apply in_map. }
  exact (Q es Pl Ie I0).
Qed.

Lemma mangle_not_under e v : mangle e v <> under \/ v = [].
Proof. destruct v as [|c v]; [now right|left]. unfold mangle. intros X. apply (f_equal (@length N)) in X. rewrite !app_length in X. cbn in X. lia. Qed.

(** The warning of a match over arms with one variant each lists exactly the variants that have no arm.  Missing: alternatives. *)
Theorem C109_warning_partial : forall es e vs ns m, plain es -> In e es -> vs <> [] -> length ns = length vs -> (forall v, In v vs -> In v (map vname (variants e)) /\ v <> []) ->
  (In m (warnings es (map (fun vn => Pat [(ename e, fst vn)] (snd vn)) (combine vs ns))) <-> exists v, In v (map vname (variants e)) /\ ~ In v vs /\ m = mangle (ename e) v).
Proof.
  intros es e vs ns m Pl Ie Ne Ln H.
  set (arms := map (fun vn => Pat [(ename e, fst vn)] (snd vn)) (combine vs ns)).
  assert (Nu : forall w, In w (map vname (variants e)) -> no_under w).
  { intros w W. apply in_map_iff in W. destruct W as (y & <- & Y). now apply (proj2 Pl e Ie). }
  assert (Tx : forall a, In a arms <-> exists v n, In (v, n) (combine vs ns) /\ a = Pat [(ename e, v)] n).
  { intros a. unfold arms. rewrite in_map_iff. split. - intros ([v n] & <- & I0). eauto. - intros (v & n & I0 & ->). exists (v, n). auto. }
  assert (Nw : forall a, In a arms -> beq_bytes (text a) under = false).
  { intros a A. apply Tx in A. destruct A as (v & n & I0 & ->). apply in_combine_l in I0. cbn [text map fst snd fold_left].
    destruct (beq_bytes (mangle (ename e) v) under) eqn:B; [|reflexivity]. apply beq_bytes_true in B. destruct (mangle_not_under (ename e) v) as [X|X]; [contradiction|]. subst v. now destruct (H [] I0). }
  assert (En : matched_enum (register es) arms = Some (ename e)).
  { destruct vs as [|v vs]; [contradiction|]. destruct ns as [|n ns]; [discriminate|]. unfold arms. cbn [combine map matched_enum fst snd].
    rewrite (Nw (Pat [(ename e, v)] n)) by (apply Tx; exists v, n; split; [now left|reflexivity]). cbn [text map fst snd fold_left].
    destruct (H v (or_introl eq_refl)) as (Hv & _). rewrite (find_all es Pl e v Ie (Nu v Hv)). destruct (position_some _ _ Hv) as (k & x & ->). reflexivity. }
  assert (Cv : forall v, In v (map vname (variants e)) -> (existsb (fun a => beq_bytes (text a) (mangle (ename e) v)) arms = true <-> In v vs)).
  { intros v Hv. rewrite existsb_exists. split.
    - intros (a & A & B). apply Tx in A. destruct A as (w & n & I0 & ->). cbn [text map fst snd fold_left] in B. apply beq_bytes_true in B. apply in_combine_l in I0.
      apply mangle_inj in B; auto. + destruct B as (_ & ->). exact I0. + apply Nu. now apply (H w I0).
    - intros I0. destruct (In_nth_error _ _ I0) as (i & Hi). assert (exists n, nth_error ns i = Some n) as (n & Hn).
      { destruct (nth_error ns i) eqn:Q; eauto. apply nth_error_None in Q. assert (i < length vs)%nat by (apply nth_error_Some; congruence). lia. }
      exists (Pat [(ename e, v)] n). split; [|cbn [text map fst snd fold_left]; apply beq_bytes_refl]. apply Tx. exists v, n. split; auto.
      clear -Hi Hn. revert ns i Hi Hn. induction vs as [|a vs IH]; intros [|b ns] [|i] Hi Hn; try discriminate; cbn [nth_error combine] in *. { injection Hi as ->. injection Hn as ->. now left. } right. eauto. }
  unfold warnings. rewrite En.
  assert (W : existsb (fun a => beq_bytes (text a) under) arms = false).
  { destruct (existsb (fun a => beq_bytes (text a) under) arms) eqn:B; [|reflexivity]. apply existsb_exists in B. destruct B as (a & A & B). rewrite (Nw a A) in B. discriminate. }
  rewrite W. rewrite in_map_iff. split.
  - intros (r & <- & F). apply filter_In in F. destruct F as (I0 & F). apply andb_true_iff in F. destruct F as (F1 & F2). apply beq_bytes_true in F1. apply negb_true_iff in F2.
    destruct (in_register es r Pl I0) as (e' & x & k & Ie' & Ix & _ & ->). cbn [fst snd] in *.
    assert (e' = e).
    { clear -F1 Pl Ie Ie'. destruct Pl as (D & _). revert D Ie Ie'. induction es as [|a es IH]; [intros _ []|]. cbn [map]. intros D. apply NoDup_cons_iff in D. destruct D as (D1 & D2).
      intros [->|A] [->|B]; auto. - exfalso. apply D1. rewrite <- F1. now apply in_map. - exfalso. apply D1. rewrite F1. now apply in_map. }
    subst e'. exists (vname x). assert (Vx : In (vname x) (map vname (variants e))) by now apply in_map. splits; auto. intros C. apply (Cv _ Vx) in C. congruence.
  - intros (v & Hv & Nv & ->). assert (Fd : exists k, In (ename e, mangle (ename e) v, k) (register es)).
    { pose proof (find_all es Pl e v Ie (Nu v Hv)) as Q. destruct (position_some _ _ Hv) as (k & x & Px). rewrite Px in Q. exists k. clear -Q Pl.
      assert (S : forall reg p en tg, find_variant reg p = Some (en, tg) -> In (en, p, tg) reg).
      { clear. induction reg as [|[[a b] c] reg IH]; intros p en tg; cbn [find_variant]; [discriminate|]. destruct (beq_bytes b p) eqn:B; [|right; auto]. apply beq_bytes_true in B. subst b. intros Q. injection Q as -> ->. now left. }
      now apply S. }
    destruct Fd as (k & I0). exists (ename e, mangle (ename e) v, k). split; [reflexivity|]. apply filter_In. split; auto. cbn [fst snd]. rewrite beq_bytes_refl. cbn [andb].
    apply negb_true_iff. destruct (existsb (fun a => beq_bytes (text a) (mangle (ename e) v)) arms) eqn:B; [|reflexivity]. apply (Cv v Hv) in B. contradiction.
Qed.
Print Assumptions C109_warning_partial.
Example C109_warning_used : warnings [shape; color] [Pat [(bs "Shape", bs "Circle")] 1] = [bs "Shape_Rect"; bs "Shape_Point"]. Proof. vm_compute. reflexivity. Qed.

(** False: variants listed as alternatives of one arm are reported as missing. *)
Theorem C109_alternatives_refuted : exists es e arms, plain es /\ In e es /\ (forall v, In v (map vname (variants e)) -> Exists (is_for (ename e) v) arms) /\ warnings es arms <> [].
Proof.
  exists [shape; color], shape, xarms. splits; [exact xplain|now left| |vm_compute; discriminate].
  intros v Hv. apply in_map_iff in Hv. destruct Hv as (y & <- & Y). now apply C109_total_used.
Qed.
Print Assumptions C109_alternatives_refuted.

(** A match whose arms bind names compiles only if the variants they are for have values, and as many as there are names, unless there is one name. *)
Theorem C109_names : forall T es e arms (v : value T) r en x n, run_match T es e arms v = Ok r -> In (Pat [(en, x)] n) arms -> (0 < n)%nat -> no_under x ->
  exists y, In y (variants e) /\ vname y = x /\ (0 < payload y)%nat /\ (n = 1%nat \/ (n <= payload y)%nat).
Proof.
  intros T es e arms v r en x n H I P U. unfold run_match in H. apply bind_Ok in H as (u & H & _). set (reg := register es) in *. clearbody reg. clear r v.
  assert (C : arm_compiles reg e (Pat [(en, x)] n) = Ok tt).
  { clear P. revert u H. induction arms as [|a l IH]; intros u H; [contradiction|]. cbn [all_compile] in H. apply bind_Ok in H as ([] & A & H). destruct I as [->|I]; [exact A|exact (IH I _ H)]. }
  unfold arm_compiles in C. destruct (forallb _ _); [|discriminate]. destruct n as [|n]; [lia|]. destruct (8 <? S n)%nat; [discriminate|].
  destruct (member_ok e (suffix (mangle en x)) (S n)) eqn:M; [|discriminate]. rewrite suffix_mangle in M by exact U. unfold member_ok in M.
  destruct (position (variants e) x) as [[k y]|] eqn:Q; [|discriminate]. apply position_in in Q as (Y & V & _). exists y. apply andb_prop in M as (M1 & M2). apply Nat.ltb_lt in M1.
  splits; auto. apply orb_prop in M2 as [M2|M2]; [left; now apply Nat.eqb_eq|right]. apply andb_prop in M2 as (_ & M2). now apply Nat.leb_le.
Qed.
Print Assumptions C109_names.
