(** C38: symbol lookup is lexically scoped. *)
From Verif Require Import Common Scope_Model Scope_Spec.
Local Open Scope nat_scope.

Section Props.
Context {A : Type}.
Implicit Types (h : list (op A)) (n : bytes).

Lemma run_app (c : ctx A) h h' : run c (h ++ h') = run (run c h) h'.
Proof. apply fold_left_app. Qed.

(** Only the innermost scope changes in a balanced piece *)
Lemma balanced_run h : balanced h -> forall s p al w, exists s' al' w',
  run (Ctx (s :: p) al w) h = Ctx (s' :: p) al' w'.
Proof.
  induction 1 as [|n a h B IH|h h' B IH B' IH']; intros s p al w.
  - now exists s, al, w.
  - change (run (Ctx (s :: p) al w) (Add n a :: h)) with (run (add_symbol (Ctx (s :: p) al w) n a) h).
    unfold add_symbol. cbn [current]. apply IH.
  - change (run (Ctx (s :: p) al w) (Enter :: h ++ Exit :: h')) with (run (Ctx ([] :: s :: p) al w) (h ++ Exit :: h')).
    rewrite run_app. destruct (IH [] (s :: p) al w) as (s1 & al1 & w1 & E1). unfold scope in *. rewrite E1.
    change (run (Ctx (s1 :: s :: p) al1 w1) (Exit :: h')) with (run (Ctx (s :: p) al1 w1) h'). apply IH'.
Qed.

(** Leaving a scope restores every binding: whatever happened inside *)
Theorem C38_restore (c : ctx A) h n :
  balanced h -> find_symbol_entry (run c (Enter :: h ++ [Exit])) n = find_symbol_entry c n /\
  current (run c (Enter :: h ++ [Exit])) = current c.
Proof.
  intros B. destruct c as [cu al w].
  change (run (Ctx cu al w) (Enter :: h ++ [Exit])) with (run (Ctx ([] :: cu) al w) (h ++ [Exit])).
  rewrite run_app. destruct (balanced_run h B [] cu al w) as (s1 & al1 & w1 & E1). unfold scope in *. rewrite E1. now split.
Qed.

Lemma depth_app d h h' e : depth d (h ++ h') = Some e -> exists m, depth d h = Some m /\ depth m h' = Some e.
Proof.
  revert d. induction h as [|o h IH]; intros d H; [now exists d|].
  destruct o; cbn [app depth] in *; auto. destruct d; [discriminate|auto].
Qed.
(** The lookup that ignores the [k] innermost scopes *)
Lemma lookup_back n : forall h d, depth 1 h = Some d -> d >= 1 ->
  (forall h1 h2, h = h1 ++ h2 -> exists m, depth 1 h1 = Some m /\ m >= 1) ->
  length (current (run (Ctx [[]] [] []) h)) = d /\
  forall k, k < d -> find_chain (skipn k (current (run (Ctx [[]] [] []) h))) n = in_force k (rev h ++ [Enter]) n.
Proof.
  induction h as [|o h IH] using rev_ind; intros d H D N.
  - injection H as <-. split; [reflexivity|]. intros k K. assert (k = 0) as -> by lia. reflexivity.
  - destruct (depth_app _ _ _ _ H) as (m & H1 & H2).
    assert (M : m >= 1).
    { destruct (N h [o] eq_refl) as (m' & E & G). congruence. }
    destruct (IH m H1 M) as [L F].
    { intros h1 h2 ->. apply (N h1 (h2 ++ [o])). now rewrite app_assoc. }
    rewrite run_app, rev_app_distr. set (c := run (Ctx [[]] [] []) h) in *.
    cbn [rev app]. unfold run at 1 2. cbn [fold_left].
    destruct c as [cu al w]. cbn [current] in L, F.
    destruct cu as [|s p]; [cbn in L; lia|].
    destruct o as [| |m0 a0]; cbn [step].
    + cbn [depth] in H2. injection H2 as <-. cbn [enter_scope current length]. split; [cbn in L |- *; lia|].
      intros k K. cbn [in_force]. destruct k as [|k].
      * cbn [skipn find_chain find_in Nat.sub]. apply (F 0). lia.
      * cbn [skipn]. replace (S k - 1) with k by lia. apply F. lia.
    + cbn [depth] in H2. destruct m as [|m]; [lia|]. injection H2 as <-.
      cbn [exit_scope current length] in *. split; [lia|].
      intros k K. cbn [in_force]. specialize (F (S k)). cbn [skipn] in F. apply F. lia.
    + cbn [depth] in H2. injection H2 as <-. unfold add_symbol. cbn [current length] in *. split; [lia|].
      intros k K. cbn [in_force]. destruct k as [|k].
      * cbn [Nat.eqb andb skipn find_chain find_in]. destruct (beq_bytes m0 n); [reflexivity|].
        apply (F 0). lia.
      * cbn [Nat.eqb andb]. cbn [skipn]. specialize (F (S k)). cbn [skipn] in F. apply F. lia.
Qed.

(** Lookup returns the declaration in force: the most recent one in a scope that is still
    open.  The first entry is the file scope, which is not left. *)
Theorem C38_lookup h n :
  (forall h1 h2, h = h1 ++ h2 -> nested h1) ->
  find_symbol_entry (run init (Enter :: h)) n = declared (Enter :: h) n.
Proof.
  intros NE.
  assert (S1 : forall h1 d e, depth d h1 = Some e -> depth (S d) h1 = Some (S e)).
  { induction h1 as [|o h1 IH]; intros d e H; cbn in *; [congruence|].
    destruct o; auto. destruct d; [discriminate|]. now apply IH in H. }
  destruct (NE h [] (eq_sym (app_nil_r h))) as [d H].
  destruct (lookup_back n h (S d)) as [L F].
  - now apply S1.
  - lia.
  - intros h1 h2 ->. destruct (NE h1 h2 eq_refl) as [m M]. exists (S m). split; [now apply S1|lia].
  - unfold find_symbol_entry, declared. cbn [rev]. rewrite <- (F 0) by lia. reflexivity.
Qed.

(** Looking a name up after its scope was left (for the editor) gives its last declaration *)
Theorem C38_all_symbols h n : find_symbol_in_all (run init h) n = last_declared h n.
Proof.
  assert (G : forall h (c : ctx A) r, find_in (all_symbols c) n = r ->
     find_in (all_symbols (run c h)) n =
     fold_left (fun r o => match o with Add m a => if beq_bytes m n then Some a else r | _ => r end) h r).
  { clear h. induction h as [|o h IH]; intros c r E; [exact E|]. cbn [fold_left].
    change (run c (o :: h)) with (run (step c o) h). apply IH. destruct c as [cu al w].
    destruct o as [| |m a]; cbn [step].
    - exact E.
    - unfold exit_scope. cbn [current]. destruct cu; exact E.
    - unfold add_symbol. cbn [current]. destruct cu; cbn [enter_scope current all_symbols find_in]; destruct (beq_bytes m n); auto. }
  apply G. reflexivity.
Qed.

(** A shadowing warning is given exactly when an enclosing scope declares the name
    (other than names starting with "_" and the names "it" and "self") *)
Theorem C38_shadow_warning (c : ctx A) s p n a :
  current c = s :: p ->
  (warned (add_symbol c n a) = n :: warned c <->
   (hd 0%N n <> 95%N \/ n = []) /\ n <> bs "it" /\ n <> bs "self" /\ exists sc b, In sc p /\ In (n, b) sc).
Proof.
  intros E. unfold add_symbol. destruct c as [cu al w]. cbn [current] in E. subst cu. cbn [current warned].
  assert (FI : forall sc : scope, find_in sc n <> None <-> exists b : A, In (n, b) sc).
  { induction sc as [|[m b] sc IH]; cbn [find_in].
    - split; [congruence|]. intros [b []].
    - destruct (beq_bytes_spec m n) as [->|NE].
      + split; [|discriminate]. intros _. exists b. now left.
      + rewrite IH. split; intros [b' H]; exists b'; [now right|]. destruct H as [H|H]; [congruence|exact H]. }
  assert (FC : find_chain p n <> None <-> exists sc b, In sc p /\ In (n, b) sc).
  { induction p as [|sc p IH]; cbn [find_chain].
    - split; [congruence|]. intros (sc & b & [] & _).
    - destruct (find_in sc n) as [v|] eqn:X.
      + split; [|discriminate]. intros _. destruct (proj1 (FI sc)) as [b H]; [congruence|]. exists sc, b. split; [now left|exact H].
      + rewrite IH. split; intros (sc' & b & H1 & H2).
        * exists sc', b. split; [now right|exact H2].
        * destruct H1 as [<-|H1]; [|now exists sc', b]. exfalso. apply (proj2 (FI sc)); [now exists b|exact X]. }
  assert (NC : forall w : list bytes, w <> n :: w).
  { intros w0 H. apply (f_equal (@length bytes)) in H. cbn in H. lia. }
  assert (U : (match n with 95%N :: _ => true | _ => false end = false) <-> (hd 0%N n <> 95%N \/ n = [])).
  { destruct n as [|x n]; [now split; auto|]. cbn [hd].
    destruct (N.eq_dec x 95) as [->|NX].
    - split; [discriminate|]. intros [H|H]; [congruence|discriminate].
    - split; [auto|]. intros _. destruct x as [|q]; [reflexivity|]. repeat (destruct q as [q|q|]; try reflexivity). congruence. }
  unfold shadows. set (u := match n with 95%N :: _ => true | _ => false end) in *. clearbody u.
  destruct (beq_bytes_spec n (bs "it")) as [E1|E1]; destruct (beq_bytes_spec n (bs "self")) as [E2|E2];
    destruct u; cbn [negb andb]; try (split; [intros H; now apply NC in H|intros (H1 & H2 & H3 & H4); exfalso; first [contradiction | apply U in H1; discriminate]]).
  destruct (find_chain p n) as [v|] eqn:X.
  - split; [|reflexivity]. intros _. splits; auto; [now apply U|]. apply FC. congruence.
  - split; [intros H; now apply NC in H|]. intros (_ & _ & _ & H). apply FC in H. congruence.
Qed.
End Props.

(** let x = 1; let y = 2; { let x = 3; { let y = 4; } <here> } *)
Example C38_case :
  let h := [Add (bs "x") 1; Add (bs "y") 2; Enter; Add (bs "x") 3; Enter; Add (bs "y") 4; Exit] in
  (forall h1 h2, h = h1 ++ h2 -> nested h1) /\
  map (find_symbol_entry (run init (Enter :: h))) [bs "x"; bs "y"; bs "z"] = [Some 3; Some 2; None] /\
  map (find_symbol_entry (run init (Enter :: h ++ [Exit]))) [bs "x"; bs "y"] = [Some 1; Some 2] /\
  find_symbol_in_all (run init (Enter :: h)) (bs "y") = Some 4.
Proof.
  cbn zeta. splits; try reflexivity. intros h1 h2 H.
  do 8 (destruct h1 as [|o h1]; [eexists; reflexivity|]; try discriminate H; injection H as <- H).
Qed.

Print Assumptions C38_restore.
Print Assumptions C38_lookup.
Print Assumptions C38_all_symbols.
Print Assumptions C38_shadow_warning.
