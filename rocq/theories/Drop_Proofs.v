From Verif Require Import Common Drop_Model Drop_Spec.
Local Open Scope nat_scope.

Lemma has_drop_spec marks x : has_drop marks x = true <-> In x marks.
Proof.
  unfold has_drop. rewrite existsb_exists. split.
  - intros (y & H & E). apply Nat.eqb_eq in E. now subst.
  - intros H. exists x. split; [exact H|apply Nat.eqb_refl].
Qed.

Section P.
Variable lookup : bytes -> option nat.
Variable parsed : list sdef.
Notation vis := (visit lookup).

Lemma sees_spec marks s : existsb (fun f => field_drops lookup marks (snd f)) (s_fields s) = true <->
  exists name y, holds lookup s name y /\ In y marks.
Proof.
  rewrite existsb_exists. split.
  - intros ([nm ty] & I & F). unfold field_drops in F. cbn [snd] in F. destruct ty as [tn| | |]; try discriminate.
    destruct (lookup tn) as [y|] eqn:L; [|discriminate]. exists nm, y. split; [now exists tn|now apply has_drop_spec].
  - intros (nm & y & (tn & I & L) & M). exists (nm, TStruct tn). split; [exact I|]. unfold field_drops. cbn [snd]. rewrite L.
    now apply has_drop_spec.
Qed.

(** how many of the listed structs are not marked *)
Definition unmarked (marks : list nat) : nat := length (filter (fun s => negb (has_drop marks (s_id s))) parsed).
Lemma unmarked_grow marks marks' : incl marks marks' -> unmarked marks' <= unmarked marks.
Proof.
  intros I. unfold unmarked. induction parsed as [|s l IH]; cbn [filter]; [lia|].
  destruct (has_drop marks (s_id s)) eqn:E.
  - apply has_drop_spec, I, has_drop_spec in E. rewrite E. cbn [negb]. exact IH.
  - cbn [negb]. destruct (has_drop marks' (s_id s)); cbn [negb length]; lia.
Qed.
Lemma unmarked_lt marks marks' s : incl marks marks' -> In s parsed -> has_drop marks (s_id s) = false ->
  In (s_id s) marks' -> unmarked marks' < unmarked marks.
Proof.
  intros I P H M. unfold unmarked. induction parsed as [|t l IH]; [destruct P|]. cbn [filter].
  destruct P as [->|P].
  - rewrite H. apply has_drop_spec in M. rewrite M. cbn [negb length].
    assert (G : length (filter (fun s => negb (has_drop marks' (s_id s))) l) <=
      length (filter (fun s => negb (has_drop marks (s_id s))) l)).
    { clear -I. induction l as [|s l IH]; cbn [filter]; [lia|]. destruct (has_drop marks (s_id s)) eqn:E.
      - apply has_drop_spec, I, has_drop_spec in E. rewrite E. cbn [negb]. exact IH.
      - cbn [negb]. destruct (has_drop marks' (s_id s)); cbn [negb length]; lia. }
    lia.
  - specialize (IH P). destruct (has_drop marks (s_id t)) eqn:E.
    + apply has_drop_spec, I, has_drop_spec in E. rewrite E. cbn [negb]. exact IH.
    + cbn [negb]. destruct (has_drop marks' (s_id t)); cbn [negb length]; lia.
Qed.

Lemma visit_fold : forall l marks ch, incl l parsed ->
  let '(marks', ch') := fold_left vis l (marks, ch) in
  incl marks marks' /\
  (forall declared, (forall x, In x marks -> owns lookup parsed declared x) -> forall x, In x marks' -> owns lookup parsed declared x) /\
  (ch = true -> ch' = true) /\
  (ch' = true -> ch = true \/ unmarked marks' < unmarked marks) /\
  (ch' = false -> marks' = marks /\ forall s, In s l -> In (s_id s) marks \/ ~ exists name y, holds lookup s name y /\ In y marks).
Proof.
  induction l as [|s l IH]; intros marks ch L.
  - cbn. split; [now intros x|]. split; [auto|]. split; [auto|]. split; [auto|]. intros _. split; [reflexivity|]. intros s [].
  - assert (L' : incl l parsed) by (intros x X; apply L; now right).
    cbn [fold_left]. unfold visit at 2.
    destruct (has_drop marks (s_id s)) eqn:H; [|destruct (existsb _ (s_fields s)) eqn:F].
    + specialize (IH marks ch L'). destruct (fold_left vis l (marks, ch)) as [m' c'].
      destruct IH as (A & B & T & C & D). (split; [exact A|split; [exact B|split; [exact T|split; [exact C|]]]]). intros X. destruct (D X) as [-> D2]. split; [reflexivity|].
      intros t [<-|J]; auto. left. now apply has_drop_spec.
    + specialize (IH (s_id s :: marks) true L'). destruct (fold_left vis l (s_id s :: marks, true)) as [m' c'].
      destruct IH as (A & B & T & C & D).
      assert (I1 : incl marks m') by (intros x X; apply A; now right).
      split; [exact I1|]. split; [|split; [auto|split]].
      * intros declared O. apply B. intros x [<-|X]; [|auto]. apply sees_spec in F. destruct F as (nm & y & Hh & M).
        eapply owns_in; eauto. apply L. now left.
      * intros _. right. eapply unmarked_lt; eauto; [apply L|apply A]; now left.
      * intros X. rewrite (T eq_refl) in X. discriminate.
    + specialize (IH marks ch L'). destruct (fold_left vis l (marks, ch)) as [m' c'].
      destruct IH as (A & B & T & C & D). (split; [exact A|split; [exact B|split; [exact T|split; [exact C|]]]]). intros X. destruct (D X) as [-> D2]. split; [reflexivity|].
      intros t [<-|J]; auto. right. rewrite <- sees_spec. congruence.
Qed.

Lemma propagate_spec : forall fuel marks, unmarked marks < fuel -> exists marks',
  propagate lookup parsed fuel marks = Ok marks' /\ incl marks marks' /\
  (forall declared, (forall x, In x marks -> owns lookup parsed declared x) -> forall x, In x marks' -> owns lookup parsed declared x) /\
  forall s name y, In s parsed -> holds lookup s name y -> In y marks' -> In (s_id s) marks'.
Proof.
  induction fuel as [|fuel IH]; intros marks U; [lia|]. cbn [propagate].
  pose proof (visit_fold parsed marks false (incl_refl _)) as V.
  destruct (fold_left vis parsed (marks, false)) as [m' c']. destruct V as (A & B & T & C & D). destruct c'.
  - destruct (C eq_refl) as [X|X]; [discriminate|]. destruct (IH m') as (m'' & E & I1 & O1 & S1); [lia|].
    exists m''. split; [exact E|]. split; [eapply incl_tran; eauto|]. split; [|exact S1].
    intros declared H. apply O1. now apply B.
  - destruct (D eq_refl) as [-> D2]. exists marks. split; [reflexivity|]. split; [apply incl_refl|]. split; [auto|].
    intros s nm y P Hh M. destruct (D2 s P) as [Q|Q]; [exact Q|]. exfalso. apply Q. eauto.
Qed.
Lemma unmarked_le marks : unmarked marks <= length parsed.
Proof. unfold unmarked. induction parsed as [|s l IH]; cbn [filter length]; [lia|]. destruct (negb _); cbn [length]; lia. Qed.
Lemma propagate_fuel : forall f marks r, propagate lookup parsed f marks = Ok r -> forall g, f <= g -> propagate lookup parsed g marks = Ok r.
Proof.
  induction f as [|f IH]; intros marks r E g G; [discriminate|]. destruct g as [|g]; [lia|]. cbn [propagate] in *.
  destruct (fold_left vis parsed (marks, false)) as [m' [|]]; [|exact E]. apply IH with (g := g) in E; [exact E|lia].
Qed.
End P.

(** * Running the glue *)
Section Glue.
Variable lookup : bytes -> option nat.
Variable defs : nat -> option sdef.
Variable marks : list nat.
Variable manual : nat -> bool.
(** every struct with something to drop inside is marked *)
Hypothesis closed : forall x p z, inside lookup defs x p z -> manual z = true -> In x marks.
Hypothesis names : forall x s, defs x = Some s -> s_id s = x /\ NoDup (map fst (s_fields s)).
Notation run := (run_glue lookup defs marks manual).

Definition go (k x : nat) (path : list bytes) : list call -> res (list (nat * list bytes)) :=
  fix go (cs : list call) : res (list (nat * list bytes)) :=
         match cs with
         | [] => Ok []
         | CUser :: cs' => do r <- go cs'; Ok ((x, path) :: r)
         | CField n y :: cs' =>
             do a <- run k y (path ++ [n]);
             do r <- go cs'; Ok (a ++ r)
         end.
Lemma run_S k x path : run (S k) x path =
  match defs x with None => Panic | Some s => go k x path (glue_body lookup marks manual s) end.
Proof. reflexivity. Qed.
Definition field_calls (f : bytes * fty) : list call :=
  match snd f with
  | TStruct name => match lookup name with Some y => if has_drop marks y then [CField (fst f) y] else [] | None => [] end
  | _ => [] end.
Lemma in_field_calls fs n y : In (CField n y) (flat_map field_calls fs) <->
  exists tn, In (n, TStruct tn) fs /\ lookup tn = Some y /\ In y marks.
Proof.
  rewrite in_flat_map. split.
  - intros ([m ty] & I & F). unfold field_calls in F. cbn [fst snd] in F. destruct ty as [tn| | |]; try easy.
    destruct (lookup tn) as [w|] eqn:L; [|easy]. destruct (has_drop marks w) eqn:H; [|easy]. destruct F as [F|[]].
    injection F as -> ->. exists tn. apply has_drop_spec in H. auto.
  - intros (tn & I & L & M). exists (n, TStruct tn). split; [exact I|]. unfold field_calls. cbn [fst snd]. rewrite L.
    apply has_drop_spec in M. rewrite M. now left.
Qed.
Lemma no_user fs : ~ In CUser (flat_map field_calls fs).
Proof.
  rewrite in_flat_map. intros ([m ty] & I & F). unfold field_calls in F. cbn [fst snd] in F.
  destruct ty as [tn| | |]; try easy. destruct (lookup tn) as [w|]; [|easy]. destruct (has_drop marks w); [|easy].
  destruct F as [F|[]]. discriminate.
Qed.

(** what the calls on fields produce *)
Definition fields_ok (x : nat) (path : list bytes) (fs : list (bytes * fty)) (r : list (nat * list bytes)) : Prop :=
  (forall z q, In (z, q) r <-> exists n tn y p, In (n, TStruct tn) fs /\ lookup tn = Some y /\ q = path ++ n :: p /\
     inside lookup defs y p z /\ manual z = true) /\ NoDup r.
Definition glue_ok (x : nat) (path : list bytes) (r : list (nat * list bytes)) : Prop :=
  (forall z q, In (z, q) r <-> exists p, q = path ++ p /\ inside lookup defs x p z /\ manual z = true) /\ NoDup r.

Lemma NoDup_app_intro' {A} (a b : list A) : NoDup a -> NoDup b -> (forall x, In x a -> In x b -> False) -> NoDup (a ++ b).
Proof.
  induction a as [|x a IH]; cbn; auto. intros H1 H2 H3. inversion H1; subst. constructor.
  - intros X. apply in_app_or in X. destruct X; [contradiction|]. eapply H3; [now left|eauto].
  - apply IH; auto. intros y Y1 Y2. eapply H3; [right; eauto|eauto].
Qed.

Lemma go_fields k x path (IH : forall y p r, run k y p = Ok r -> glue_ok y p r) :
  forall fs r, NoDup (map fst fs) -> go k x path (flat_map field_calls fs) = Ok r -> fields_ok x path fs r.
Proof.
  induction fs as [|[n ty] fs IHf]; intros r ND E.
  - cbn in E. injection E as <-. split; [|constructor]. intros z q. split; [intros []|]. intros (? & ? & ? & ? & [] & _).
  - cbn [map fst] in ND. inversion ND as [|? ? N1 N2]; subst. cbn [flat_map] in E.
    assert (Skip : forall r', go k x path (flat_map field_calls fs) = Ok r' ->
        (forall tn y p z, ty = TStruct tn -> lookup tn = Some y -> inside lookup defs y p z -> manual z = true -> False) ->
        fields_ok x path ((n, ty) :: fs) r').
    { intros r' E' NO. destruct (IHf r' N2 E') as [F1 F2]. split; [|exact F2]. intros z q. rewrite F1. split.
      - intros (m & tn & y & p & I & R). exists m, tn, y, p. split; [now right|exact R].
      - intros (m & tn & y & p & [I|I] & L & Q & In' & M).
        + injection I as -> ->. exfalso. eapply NO; eauto.
        + exists m, tn, y, p. auto. }
    destruct ty as [tn|t|t|]; try (apply Skip; [exact E|discriminate]).
    unfold field_calls at 1 in E. cbn [fst snd] in E.
    destruct (lookup tn) as [y|] eqn:L; [|apply Skip; [exact E|intros ? ? ? ? X; injection X as <-; congruence]].
    destruct (has_drop marks y) eqn:H.
    2: { apply Skip; [exact E|]. intros tn' y' p z X L' In' M. injection X as <-. rewrite L in L'. injection L' as <-.
         apply (closed y p z In') in M. apply has_drop_spec in M. congruence. }
    cbn [app go] in E. destruct (run k y (path ++ [n])) as [a| | |] eqn:Ea; try discriminate. cbn [bind] in E.
    destruct (go k x path (flat_map field_calls fs)) as [b| | |] eqn:Eb; try discriminate. cbn [bind] in E. injection E as <-.
    destruct (IH _ _ _ Ea) as [A1 A2]. destruct (IHf b N2 eq_refl) as [B1 B2]. split.
    + intros z q. rewrite in_app_iff, A1, B1. split.
      * intros [(p & Q & In' & M)|(m & tn' & y' & p & I & R)].
        -- exists n, tn, y, p. rewrite <- app_assoc in Q. cbn [app] in Q. split; [now left|]. auto.
        -- exists m, tn', y', p. split; [now right|exact R].
      * intros (m & tn' & y' & p & [I|I] & L' & Q & In' & M).
        -- injection I as -> ->. rewrite L in L'. injection L' as <-. left. exists p. rewrite <- app_assoc. auto.
        -- right. exists m, tn', y', p. auto.
    + apply NoDup_app_intro'; auto. intros [z q] Za Zb. apply A1 in Za. apply B1 in Zb.
      destruct Za as (p & Q & _). destruct Zb as (m & tn' & y' & p' & I & _ & Q' & _). rewrite Q in Q'.
      rewrite <- app_assoc in Q'. apply app_inv_head in Q'. cbn in Q'. injection Q' as <- _.
      apply N1. now apply (in_map fst) in I.
Qed.

Lemma run_ok : forall k x path r, run k x path = Ok r -> glue_ok x path r.
Proof.
  induction k as [|k IH]; intros x path r E; [discriminate|]. rewrite run_S in E.
  destruct (defs x) as [s|] eqn:D; [|discriminate]. destruct (names x s D) as [Nx ND].
  unfold glue_body in E. change (flat_map _ (s_fields s)) with (flat_map field_calls (s_fields s)) in E.
  rewrite Nx in E.
  assert (K : forall r', go k x path (flat_map field_calls (s_fields s)) = Ok r' ->
     (forall z q, In (z, q) r' <-> exists p, p <> [] /\ q = path ++ p /\ inside lookup defs x p z /\ manual z = true) /\ NoDup r').
  { intros r' E'. destruct (go_fields k x path IH (s_fields s) r' ND E') as [F1 F2]. split; [|exact F2].
    intros z q. rewrite F1. split.
    - intros (n & tn & y & p & I & L & Q & In' & M). exists (n :: p). split; [discriminate|]. split; [exact Q|]. split; [|exact M].
      econstructor; eauto. exists tn; auto.
    - intros (p & NE & Q & In' & M). inversion In' as [|? s' n y p' ? D' (tn & I & L) In'' E1 E2 E3]; subst; [contradiction|].
      rewrite D in D'. injection D' as <-. exists n, tn, y, p'. auto. }
  destruct (manual x) eqn:Mx.
  - cbn [app go] in E. destruct (go k x path (flat_map field_calls (s_fields s))) as [b| | |] eqn:Eb; try discriminate.
    cbn [bind] in E. injection E as <-. destruct (K b eq_refl) as [K1 K2]. split.
    + intros z q. cbn [In]. rewrite K1. split.
      * intros [X|(p & _ & R)]; [|eauto]. injection X as <- <-. exists []. rewrite app_nil_r. repeat split; auto. constructor.
      * intros (p & Q & In' & M). destruct p as [|n p].
        -- left. inversion In'; subst. now rewrite app_nil_r.
        -- right. exists (n :: p). split; [discriminate|auto].
    + constructor; [|exact K2]. rewrite K1. intros (p & NE & Q & _). apply NE. rewrite <- (app_nil_r path) in Q at 1.
      now apply app_inv_head in Q.
  - cbn [app] in E. destruct (K r E) as [K1 K2]. split; [|exact K2]. intros z q. rewrite K1. split.
    + intros (p & _ & R). eauto.
    + intros (p & Q & In' & M). exists p. split; [|auto]. intros ->. inversion In'; subst. congruence.
Qed.

Hypothesis total : forall x s n y, defs x = Some s -> holds lookup s n y -> defs y <> None.
Lemma run_ex x : Acc (fun y x => exists s n, defs x = Some s /\ holds lookup s n y) x -> defs x <> None ->
  exists f0, forall f path, f0 <= f -> exists r, run f x path = Ok r.
Proof.
  clear closed names. intros A. induction A as [x _ IH]. intros D. destruct (defs x) as [s|] eqn:Dx; [|congruence].
  assert (G : forall fs, incl fs (s_fields s) -> exists f0, forall f path, f0 <= f -> exists r, go f x path (flat_map field_calls fs) = Ok r).
  { induction fs as [|[n ty] fs IHf]; intros I.
    - exists 0. intros f path _. exists []. reflexivity.
    - destruct IHf as [f1 H1]; [intros w W; apply I; now right|]. cbn [flat_map]. unfold field_calls at 1. cbn [fst snd].
      destruct ty as [tn|t|t|]; try (exists f1; exact H1).
      destruct (lookup tn) as [y|] eqn:L; [|exists f1; exact H1]. destruct (has_drop marks y); [|exists f1; exact H1].
      assert (Hh : holds lookup s n y) by (exists tn; split; [apply I; now left|exact L]).
      destruct (IH y) as [f2 H2]; [now exists s, n|now apply (total x s n y)|].
      exists (max f1 f2). intros f path F. cbn [app go].
      destruct (H2 f (path ++ [n])) as [a ->]; [lia|]. cbn [bind]. destruct (H1 f path) as [b ->]; [lia|]. cbn [bind]. eauto. }
  destruct (G (s_fields s) (incl_refl _)) as [f0 H]. exists (S f0). intros f path F. destruct f as [|f]; [lia|].
  rewrite run_S, Dx. unfold glue_body. change (flat_map _ (s_fields s)) with (flat_map field_calls (s_fields s)).
  destruct (H f path) as [r E]; [lia|]. destruct (manual (s_id s)); cbn [app go]; rewrite E; cbn [bind]; eauto.
Qed.
End Glue.
