(** C112: opaque structs and aliases. *)
From Verif Require Import Common Types_Model Opaque_Model Opaque_Spec.
Local Open Scope nat_scope.

Lemma check_typed vars funs fields ds real ret cur e t : (forall x, vars x = Some (real x)) -> (forall f, funs f = Some (ret f)) ->
  typed real ret fields e t -> forall r, check vars funs fields ds cur e = Ok r -> r = Some t.
Proof.
  intros V F H. induction H; intros r C; cbn [check] in C;
    try (apply bind_Ok in C as (u & C & D); specialize (IHtyped _ C); subst u; cbn [inner] in D);
    try (destruct (access cur ds _); [|discriminate]; unfold field_type in D; cbn [resolve] in D); try congruence.
Qed.

(** Whatever an expression outside the file does with values whose types are known, an accepted one reads no field of an opaque struct. *)
Theorem C112_field_partial : forall vars funs fields ds real ret cur e r n d,
  (forall x, vars x = Some (real x)) -> (forall f, funs f = Some (ret f)) ->
  check vars funs fields ds cur e = Ok r -> touches real ret fields e n -> find_def ds n = Some d -> dopaque d = true -> dfile d = Some cur.
Proof.
  intros vars funs fields ds real ret cur e r n d V F C T D O. revert r C.
  assert (A : forall t, resolve t = Some n -> access cur ds t = true -> dfile d = Some cur).
  { intros t R X. unfold access, barred in X. rewrite R, D, O in X. destruct (dfile d) as [f|]; [|discriminate]. cbn [andb] in X. destruct (beq_bytes f cur) eqn:E; [|discriminate]. apply beq_bytes_true in E. now subst. }
  induction T; intros r C; cbn [check] in C; apply bind_Ok in C as (u & C & K); eauto.
  - destruct (access cur ds u) eqn:X; [|discriminate]. destruct H as [H|H]; apply (check_typed _ _ _ _ _ _ _ _ _ V F H) in C; subst u; now apply (fun R => A _ R X).
  - destruct (access cur ds u) eqn:X; [|discriminate]. apply (check_typed _ _ _ _ _ _ _ _ _ V F H) in C. subst u. now apply (fun R => A _ R X).
  - destruct (access cur ds u) eqn:X; [|discriminate]. apply (check_typed _ _ _ _ _ _ _ _ _ V F H) in C. subst u. now apply (fun R => A _ R X).
Qed.
Print Assumptions C112_field_partial.

Definition user := Def (bs "User") true (Some (bs "user.zc")).
Definition xfields (n f : bytes) : option ty := if beq_bytes f (bs "id") then Some (TIntK 0) else if beq_bytes f (bs "next") then Some (TPointer (TStruct (bs "User"))) else None.
Definition xreal (x : bytes) : ty := TPointer (TStruct (bs "User")).
Definition xvars (x : bytes) : option ty := Some (xreal x).
Definition xex := EDot (EArrow (EVar (bs "u")) (bs "next")) (bs "id").
Example C112_field_used : check xvars xvars xfields [user] (bs "user.zc") xex = Ok (Some (TIntK 0)) /\ check xvars xvars xfields [user] (bs "main.zc") xex = Panic
  /\ touches xreal xreal xfields xex (bs "User").
Proof. splits; try reflexivity. apply to_dot. right. apply (t_arrow _ _ _ _ _ (bs "User")); [apply (t_var xreal)|reflexivity]. Qed.

(** In the file of its definition, and without opaque structs, nothing is rejected. *)
Theorem C112_inside : forall vars funs fields ds cur e, (forall n d, find_def ds n = Some d -> dopaque d = false \/ dfile d = Some cur) ->
  (exists r, check vars funs fields ds cur e = Ok r) /\ forall n, literal cur ds n = true.
Proof.
  intros vars funs fields ds cur e H.
  assert (A : forall n d, find_def ds n = Some d -> barred cur d = false).
  { intros n d D. unfold barred. destruct (H n d D) as [E|E]; rewrite E; [reflexivity|]. rewrite beq_bytes_refl. apply andb_false_r. }
  split.
  - assert (B : forall t, access cur ds t = true). { intros t. unfold access. destruct (resolve t) as [n|]; [|reflexivity]. destruct (find_def ds n) as [d|] eqn:E; [|reflexivity]. now rewrite (A _ _ E). }
    induction e; cbn [check]; try (destruct IHe as (r & ->); cbn [bind]; rewrite ?B); eauto.
  - intros n. unfold literal. destruct (find_def ds n) as [d|] eqn:E; [|reflexivity]. now rewrite (A _ _ E).
Qed.
Print Assumptions C112_inside.
Example C112_inside_used : forall n d, find_def [user] n = Some d -> dopaque d = false \/ dfile d = Some (bs "user.zc").
Proof. intros n d H. cbn [find_def] in H. destruct (beq_bytes (dname user) n); [|discriminate]. injection H as <-. now right. Qed.

(** A literal of an opaque struct is accepted in its file only. *)
Theorem C112_literal : forall cur ds n d, find_def ds n = Some d -> dopaque d = true -> (literal cur ds n = true <-> dfile d = Some cur).
Proof.
  intros cur ds n d D O. unfold literal, barred. rewrite D, O. cbn [andb]. destruct (dfile d) as [f|]; [|split; discriminate].
  rewrite negb_involutive. split; intros E; [apply beq_bytes_true in E; now subst|]. injection E as ->. apply beq_bytes_refl.
Qed.
Print Assumptions C112_literal.
Example C112_literal_used : find_def [user] (bs "User") = Some user. Proof. reflexivity. Qed.

(** False in four ways: a value whose type the parser does not know, a value of an opaque alias of the struct, destructuring, and every instance of an opaque generic struct show their fields to all files. *)
Theorem C112_field_refuted : forall vars funs fields ds cur x f n u d name,
  (vars x = None \/ vars x = Some (TAlias true n u) \/ vars x = Some (TPointer (TPointer (TStruct n))) -> exists r, check vars funs fields ds cur (EDot (EVar x) f) = Ok r)
  /\ destructure cur ds n = true
  /\ (vars x = Some (TStruct name) -> exists r, check vars funs fields (instance d name :: ds) cur (EDot (EVar x) f) = Ok r)
  /\ literal cur (instance d name :: ds) name = true.
Proof.
  intros. splits.
  - cbn [check bind]. intros [H|[H|H]]; rewrite H; cbn [access resolve]; eauto.
  - reflexivity.
  - intros H. cbn [check bind]. rewrite H. unfold access. cbn [resolve find_def instance dname]. rewrite beq_bytes_refl. cbn. eauto.
  - unfold literal. cbn [find_def instance dname]. rewrite beq_bytes_refl. reflexivity.
Qed.
Print Assumptions C112_field_refuted.
Example C112_field_refuted_used : exists r, check (fun _ => None) xvars xfields [user] (bs "main.zc") xex = Ok r. Proof. eexists. reflexivity. Qed.

(** Outside the file of an opaque alias, a variable of it takes values of it and of unknown type only, and other variables take none of its values. *)
Theorem C112_alias_partial : forall file cur n u t, here file cur n = false ->
  (let_ok file cur (TAlias true n u) (Some t) = true <-> t = TUnknown \/ exists w, t = TAlias true n w)
  /\ (t <> TUnknown -> (forall o m w, t <> TAlias o m w) -> let_ok file cur t (Some (TAlias true n u)) = false).
Proof.
  intros file cur n u t H. unfold let_ok. split.
  - cbn [compat]. rewrite H, orb_false_r. split.
    + intros E. destruct t as [| | | | | | | | | | |o m w]; cbn in E; try discriminate; auto. destruct o; [|discriminate]. apply beq_bytes_true in E. subst. right. eauto.
    + intros [->|(w & ->)]; [reflexivity|]. cbn. apply beq_bytes_refl.
  - intros N A. destruct t as [| | | | | | | | | | |o m w]; try (now destruct (A o m w)); try congruence; cbn [compat compat_right]; rewrite H; cbn; try reflexivity;
      unfold type_eq; cbn [is_unknown is_integer is_float is_string is_char_ptr orb andb]; rewrite ?andb_false_r; reflexivity.
Qed.
Print Assumptions C112_alias_partial.
Definition handle := TAlias true (bs "Handle") (TIntK 0).
Definition xfile (n : bytes) : option bytes := Some (bs "library.zc").
Example C112_alias_used : here xfile (bs "main.zc") (bs "Handle") = false /\ let_ok xfile (bs "main.zc") handle (Some (TIntK 0)) = false /\ let_ok xfile (bs "main.zc") (TIntK 0) (Some handle) = false
  /\ let_ok xfile (bs "library.zc") handle (Some (TIntK 0)) = true. Proof. splits; reflexivity. Qed.

(** In its file the underlying type and the alias convert into each other. *)
Theorem C112_alias_inside : forall file cur n u, here file cur n = true -> compat_right file cur u = true ->
  let_ok file cur (TAlias true n u) (Some u) = true /\ let_ok file cur u (Some (TAlias true n u)) = true.
Proof.
  intros file cur n u H R. assert (Q : forall b, compat_right file cur b = true -> compat file cur u b = true).
  { revert R. clear. induction u as [| | | | | | | | | | |o m w IH]; intros R b B; cbn [compat]; auto. destruct o; [|auto]. cbn [compat_right] in R. destruct (here file cur m); [|discriminate]. auto. }
  unfold let_ok. split.
  - cbn [compat]. rewrite H, (Q u R). apply orb_true_r.
  - rewrite (Q (TAlias true n u)); [apply orb_true_r|]. cbn [compat_right]. now rewrite H.
Qed.
Print Assumptions C112_alias_inside.
Example C112_alias_inside_used : here xfile (bs "library.zc") (bs "Handle") = true. Proof. reflexivity. Qed.

(** False inside the file and behind pointers: there any value passes, a string for a handle of int, a pointer to int for a pointer to a handle; and between types that are not opaque nothing is checked at all. *)
Theorem C112_alias_refuted : forall file cur n u a b, here file cur n = true -> (forall m w, u <> TAlias true m w) -> (forall m w, a <> TAlias true m w) -> (forall m w, b <> TAlias true m w) ->
  let_ok file cur (TAlias true n u) (Some b) = true /\ let_ok file cur a (Some b) = true /\ let_ok file cur (TPointer (TAlias true n u)) (Some b) = true /\ let_ok file cur a (Some (TPointer (TAlias true n u))) = true.
Proof.
  intros file cur n u a b H U A B.
  assert (Q : forall x y, (forall m w, x <> TAlias true m w) -> (forall m w, y <> TAlias true m w) -> compat file cur x y = true).
  { clear. intros x y X Y. assert (R : compat_right file cur y = true) by (destruct y as [| | | | | | | | | | |o m w]; try reflexivity; destruct o; [destruct (Y m w eq_refl)|reflexivity]).
    destruct x as [| | | | | | | | | | |o m w]; try exact R. destruct o; [destruct (X m w eq_refl)|exact R]. }
  unfold let_ok. splits.
  - cbn [compat]. rewrite H, Q by assumption. apply orb_true_r.
  - rewrite Q by assumption. apply orb_true_r.
  - rewrite (Q (TPointer (TAlias true n u))) by (assumption || discriminate). apply orb_true_r.
  - rewrite (Q a) by (assumption || discriminate). apply orb_true_r.
Qed.
Print Assumptions C112_alias_refuted.
Example C112_alias_refuted_used : let_ok xfile (bs "library.zc") handle (Some TString) = true /\ let_ok xfile (bs "main.zc") (TPointer handle) (Some (TPointer (TIntK 0))) = true. Proof. split; reflexivity. Qed.
