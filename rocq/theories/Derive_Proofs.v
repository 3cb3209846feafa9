From Verif Require Import Common Derive_Model Derive_Spec.
Local Open Scope nat_scope.

Scheme ty_ind2 := Induction for ty Sort Prop with tys_ind2 := Induction for tys Sort Prop.
Combined Scheme ty_tys_ind from ty_ind2, tys_ind2.
Scheme val_ind2 := Induction for val Sort Prop with vals_ind2 := Induction for vals Sort Prop.
Combined Scheme val_vals_ind from val_ind2, vals_ind2.
Scheme same_ind2 := Induction for same Sort Prop with sames_ind2 := Induction for sames Sort Prop.
Combined Scheme same_sames_ind from same_ind2, sames_ind2.

Lemma bare_variant vs n t : bare vs -> variant vs n t -> t = TStruct TNil.
Proof. intros B V. induction V; cbn in B; destruct B; auto. Qed.
Lemma unit_val p : of_type (TStruct TNil) p -> p = VStruct VNil.
Proof. intros H. inversion H; subst. match goal with H : of_types TNil _ |- _ => inversion H; subst end. reflexivity. Qed.

Lemma derived_ok :
  (forall t v w, comparable t -> of_type t v -> of_type t w -> no_null v -> no_null w ->
    exists b, derived_eq t v w = Ok b /\ (b = true <-> same v w))
  /\ (forall ts l m, comparables ts -> of_types ts l -> of_types ts m -> no_nulls l -> no_nulls m ->
    exists b, derived_eqs ts l m = Ok b /\ (b = true <-> sames l m)).
Proof.
  apply ty_tys_ind.
  - intros v w _ A B _ _. inversion A; inversion B; subst. eexists. split; [reflexivity|].
    rewrite Z.eqb_eq. split; [intros ->; constructor|intros H; now inversion H].
  - intros v w _ A B _ _. inversion A; inversion B; subst. eexists. split; [reflexivity|].
    destruct f, f0; (split; [try discriminate|intros H; inversion H; subst; try apply Z.eqb_refl]).
    rewrite Z.eqb_eq. intros ->. constructor.
  - intros v w _ A B _ _. inversion A; inversion B; subst. eexists. split; [reflexivity|].
    rewrite N.eqb_eq. split; [intros ->; constructor|intros H; now inversion H].
  - intros v w _ A B N1 N2. inversion A; inversion B; subst. cbn in N1, N2. destruct s as [s|], s0 as [s0|]; try contradiction.
    eexists. split; [reflexivity|]. split.
    + intros H. apply beq_bytes_true in H. subst. constructor.
    + intros H. inversion H. apply beq_bytes_refl.
  - intros t IH v w C. contradiction.
  - intros vs IH v w C A B _ _. inversion A; inversion B; subst. eexists. split; [reflexivity|].
    cbn in C.
    match goal with H1 : variant vs tag ?t1, H2 : variant vs tag0 ?t2, P : of_type ?t1 p, Q : of_type ?t2 p0 |- _ =>
      rewrite (bare_variant _ _ _ C H1) in P; rewrite (bare_variant _ _ _ C H2) in Q;
      rewrite (unit_val _ P), (unit_val _ Q) end.
    rewrite Nat.eqb_eq. split; [intros ->; repeat constructor|intros H; now inversion H].
  - intros fs IH v w C A B N1 N2. inversion A; inversion B; subst. cbn in *.
    destruct (IH l l0) as (b & E & H); auto. exists b. split; [auto|]. rewrite H.
    split; [now constructor|intros X; now inversion X].
  - intros l m _ A B _ _. inversion A; inversion B; subst. exists true. split; [reflexivity|]. split; [constructor|auto].
  - intros t IHt ts IHts l m [C1 C2] A B N1 N2. inversion A; inversion B; subst. cbn in N1, N2.
    destruct N1, N2. destruct (IHt v v0) as (b & E & HB); auto. destruct (IHts l0 l1) as (b' & E' & HB'); auto.
    cbn [derived_eqs]. rewrite E. cbn [bind]. destruct b.
    + exists b'. split; [auto|]. rewrite HB'. split; [intros X; constructor; [now apply HB|auto]|intros X; now inversion X].
    + exists false. split; [auto|]. split; [discriminate|intros X; inversion X; subst; apply HB; auto].
Qed.

(** [same] is an equivalence, except that a value with a NaN is not the same as itself *)
Lemma same_refl : (forall v, no_nan v -> same v v) /\ (forall l, no_nans l -> sames l l).
Proof.
  apply val_vals_ind; cbn; intros; try (constructor; now auto).
  - destruct f; [contradiction|constructor].
  - destruct H1. constructor; auto.
Qed.
Lemma same_sym : (forall v w, same v w -> same w v) /\ (forall l m, sames l m -> sames m l).
Proof. apply same_sames_ind; intros; constructor; auto. Qed.
Lemma same_trans : (forall v w, same v w -> forall u, same w u -> same v u) /\ (forall l m, sames l m -> forall k, sames m k -> sames l k).
Proof.
  apply same_sames_ind; intros.
  all: try match goal with H : same _ ?u |- same _ ?u => inversion H; subst; constructor; auto end.
  - assumption.
  - match goal with H : sames (VCons w m) k |- _ => inversion H; subst end. constructor; auto.
Qed.

(** The text *)
Definition fits (fs : list (bytes * cmp)) : Prop := Forall (fun f => length (cmp_text f) < 256) fs.
Lemma cat_ok cap s t : length s + length t < cap -> cat cap s t = Ok (s ++ t).
Proof. intros H. unfold cat. now rewrite (proj2 (Nat.ltb_lt _ _) H). Qed.
Lemma cat_ub cap s t : cap <= length s + length t -> cat cap s t = UB.
Proof. intros H. unfold cat. now rewrite (proj2 (Nat.ltb_ge _ _) H). Qed.
Fixpoint rest (fs : list (bytes * cmp)) : bytes := match fs with [] => bs ";" | f :: fs => bs " && " ++ cmp_text f ++ rest fs end.
Lemma join_rest f fs : join (bs " && ") (map cmp_text (f :: fs)) ++ bs ";" = cmp_text f ++ rest fs.
Proof.
  revert f. induction fs as [|g fs IH]; intros f.
  - reflexivity.
  - change (join (bs " && ") (map cmp_text (f :: g :: fs))) with (cmp_text f ++ bs " && " ++ join (bs " && ") (map cmp_text (g :: fs))).
    change (rest (g :: fs)) with (bs " && " ++ cmp_text g ++ rest fs). rewrite <- IH. now rewrite <- !app_assoc.
Qed.
Lemma eq_fields_ok fs body : fits fs -> length body < 4096 ->
  eq_fields fs false body = (if length body + length (rest fs) <? 4096 then Ok (body ++ rest fs) else UB).
Proof.
  revert body. induction fs as [|f fs IH]; intros body F L.
  - reflexivity.
  - inversion F; subst. cbn [eq_fields rest].
    destruct (Nat.ltb_spec (length body + length (bs " && " ++ cmp_text f ++ rest fs)) 4096) as [H|H].
    + rewrite !app_length in H.
      rewrite cat_ok by lia. cbn [bind]. rewrite (cat_ok 256 []) by (cbn [length]; lia). cbn [bind app].
      rewrite cat_ok by (rewrite app_length; lia). cbn [bind]. rewrite IH; [|auto|rewrite !app_length; lia].
      rewrite !app_length. rewrite (proj2 (Nat.ltb_lt _ _)) by lia. now rewrite <- !app_assoc.
    + rewrite !app_length in H.
      destruct (Nat.lt_ge_cases (length body + length (bs " && ")) 4096) as [A|A];
        [rewrite (cat_ok 4096 body) by auto|rewrite (cat_ub 4096 body) by auto; reflexivity]. cbn [bind].
      rewrite (cat_ok 256 []) by (cbn [length]; lia). cbn [bind app].
      destruct (Nat.lt_ge_cases (length (body ++ bs " && ") + length (cmp_text f)) 4096) as [B|B];
        [rewrite (cat_ok 4096) by auto|rewrite (cat_ub 4096) by auto; reflexivity]. cbn [bind].
      rewrite IH; [|auto|rewrite app_length; auto].
      rewrite (proj2 (Nat.ltb_ge _ _)); [reflexivity|]. rewrite !app_length. lia.
Qed.
Lemma eq_body_ok fs : fits fs -> eq_body fs = if length (body_of fs) <? 4096 then Ok (body_of fs) else UB.
Proof.
  intros F. unfold eq_body, body_of. destruct fs as [|f fs].
  - vm_compute. reflexivity.
  - cbn [eq_fields bind]. inversion F; subst. rewrite (cat_ok 256 []) by (cbn [length]; lia). cbn [bind app].
    rewrite join_rest. assert (L7 : length (bs "return ") = 7) by reflexivity.
    rewrite cat_ok by (rewrite L7; lia). cbn [bind].
    rewrite eq_fields_ok; [|auto|rewrite app_length, L7; lia].
    rewrite !app_length, Nat.add_assoc, <- app_assoc. reflexivity.
Qed.
Lemma eq_body_ub fs : Exists (fun f => 256 <= length (cmp_text f)) fs -> eq_body fs = UB.
Proof.
  unfold eq_body. assert (G : forall first body, Exists (fun f => 256 <= length (cmp_text f)) fs -> eq_fields fs first body = UB);
    [|auto]. 
  induction fs as [|f fs IH]; intros first body E; [inversion E|].
  cbn [eq_fields]. destruct (if first then Ok body else cat 4096 body (bs " && ")) eqn:Q; cbn [bind].
  2-4: destruct first; try discriminate; unfold cat in Q; destruct (_ <? _); try discriminate; auto.
  inversion E; subst.
  - rewrite cat_ub by auto. reflexivity.
  - unfold cat at 1. destruct (_ <? _); [|reflexivity]. cbn [bind]. unfold cat at 1. destruct (_ <? _); [|reflexivity]. cbn [bind]. auto.
Qed.
