(** C107: struct literals and destructuring. *)
From Coq Require Import Permutation.
From Verif Require Import Common Destruct_Model Destruct_Spec.
Local Open Scope nat_scope.

Section Values.
  Variables (V St : Type) (zero : V).

  Lemma get_none f (l : sval V) : get f l = None <-> ~ In f (map fst l).
  Proof.
    unfold get. induction l as [|[g x] l IH]; cbn [find map fst]; [tauto|]. destruct (beq_bytes g f) eqn:E.
    - apply beq_bytes_true in E. subst. cbn. split; [discriminate|intros H; exfalso; apply H; auto].
    - rewrite IH. split.
      + intros H [K|K]; [subst; rewrite beq_bytes_refl in E; discriminate|auto].
      + intros H K. apply H. now right.
  Qed.
  Lemma get_map f def (g : bytes -> V) : In f def -> get f (map (fun f => (f, g f)) def) = Some (g f).
  Proof.
    unfold get. induction def as [|h def IH]; intros H; [destruct H|]. cbn [map find fst]. destruct (beq_bytes h f) eqn:E.
    - apply beq_bytes_true in E. now subst.
    - apply IH. destruct H as [->|H]; [rewrite beq_bytes_refl in E; discriminate|exact H].
  Qed.
  Lemma has_In f l : has f l = true <-> In f l.
  Proof.
    unfold has. rewrite existsb_exists. split.
    - intros (x & I & E). apply beq_bytes_true in E. now subst.
    - intros I. exists f. split; [exact I|apply beq_bytes_refl].
  Qed.

  Lemma has_false f l : has f l = false <-> ~ In f l.
  Proof. rewrite <- has_In. destruct (has f l); split; congruence. Qed.

  Lemma eval_pure (value : bytes -> V) : forall order s, (forall f e, In (f, e) order -> pure e (value f)) ->
    eval_inits (V := V) (St := St) order s = (map (fun f => (f, value f)) (map fst order), effects order s).
  Proof.
    induction order as [|[f e] order IH]; intros s H; [reflexivity|].
    cbn [eval_inits map fst]. destruct (e s) as [x s'] eqn:E. rewrite IH by (intros g h K; apply H; right; exact K).
    pose proof (H f e (or_introl eq_refl) s) as K. rewrite E in K. cbn in K. subst x.
    unfold effects. cbn [fold_left snd]. now rewrite E.
  Qed.

  (** A struct literal, its fields in any order and each once, has in every field the value
      given for it and zero in the others, and evaluates every expression once, if the
      values do not depend on the order in which the C compiler evaluates them. *)
  Theorem C107_literal_partial :
    forall def (inits order : list (bytes * expr V St)) value s,
    (forall f e, In (f, e) inits -> In f def /\ pure e (value f)) -> Permutation inits order ->
    literal zero def order s =
      Ok (map (fun f => (f, if has f (map fst inits) then value f else zero)) def, effects order s).
  Proof.
    intros def inits order value s H P.
    assert (H' : forall f e, In (f, e) order -> In f def /\ pure e (value f)).
    { intros f e K. apply H. eapply Permutation_in; [apply Permutation_sym, P|exact K]. }
    unfold literal. replace (forallb (fun i => has (fst i) def) order) with true.
    2:{ symmetry. apply forallb_forall. intros [f e] Ii. apply has_In. now apply H' in Ii. }
    rewrite (eval_pure value) by (intros f e K; now apply H').
    do 2 f_equal. apply map_ext. intros f. f_equal.
    assert (Pf : Permutation (map fst inits) (map fst order)) by now apply Permutation_map.
    destruct (has f (map fst inits)) eqn:E.
    - apply has_In in E. rewrite get_map; [reflexivity|]. eapply Permutation_in; [exact Pf|exact E].
    - apply has_false in E. replace (get f _) with (@None V); [reflexivity|]. symmetry. apply get_none.
      rewrite map_map. cbn [fst]. rewrite map_id. intros K. apply E. eapply Permutation_in; [apply Permutation_sym, Pf|exact K].
  Qed.

  (** ** Patterns *)
  Definition fresh_names (names : list bytes) (e : env V) : Prop :=
    NoDup names /\ forall n, In n names -> ~ In n (map fst e).

  Lemma declare_ok (e : env V) n v : ~ In n (map fst e) -> declare e n v = Ok ((n, v) :: e).
  Proof.
    intros H. unfold declare. destruct (existsb _ e) eqn:E; [|reflexivity]. exfalso. apply H.
    apply existsb_exists in E. destruct E as ([m x] & I & B). apply beq_bytes_true in B. cbn in B. subst m.
    change n with (fst (n, x)). now apply in_map.
  Qed.
  Lemma fresh_step n names (e : env V) v : fresh_names (n :: names) e -> ~ In n (map fst e) /\ fresh_names names ((n, v) :: e).
  Proof.
    intros [Nd F]. apply NoDup_cons_iff in Nd. destruct Nd as [N1 N2]. split; [apply F; left; reflexivity|].
    split; [exact N2|]. intros m I [K|K]; [cbn in K; subst; contradiction|]. apply (F m); [right; exact I|exact K].
  Qed.

  Lemma fields_read (l : pat) : forall count acc rest, l <> [] -> count + length l <= 16 ->
    fields_loop (written pat_tok RBrace l ++ rest) count acc = Ok (acc ++ map pair_of l, rest).
  Proof.
    induction l as [|[f o] l IH]; intros count acc rest Ne L; [contradiction|]. cbn [length] in L.
    assert (Lt : (16 <=? count) = false) by (apply Nat.leb_gt; lia).
    destruct l as [|p l].
    - destruct o as [n|]; cbn [written pat_tok app fst snd fields_loop tok_text]; rewrite Lt; reflexivity.
    - assert (Ne' : p :: l <> []) by discriminate.
      specialize (IH (S count) (acc ++ [pair_of (f, o)]) rest Ne' ltac:(lia)). rewrite <- app_assoc in IH. cbn [app] in IH.
      change (written pat_tok RBrace ((f, o) :: p :: l)) with (pat_tok (f, o) ++ Comma :: written pat_tok RBrace (p :: l)).
      rewrite <- app_assoc. destruct o as [n|]; cbn [pat_tok app fst snd fields_loop tok_text]; rewrite Lt; exact IH.
  Qed.
  Lemma names_read close (C : close = RBrace \/ close = RParen) (l : list bytes) : forall count acc rest, l <> [] -> count + length l <= 16 ->
    names_loop close (written (fun n => [Name n]) close l ++ rest) count acc = Ok (acc ++ l, rest).
  Proof.
    induction l as [|n l IH]; intros count acc rest Ne L; [contradiction|]. cbn [length] in L.
    assert (Lt : (16 <=? count) = false) by (apply Nat.leb_gt; lia).
    destruct l as [|p l].
    - destruct C as [-> | ->]; cbn [written app names_loop tok_text]; rewrite Lt; reflexivity.
    - assert (Ne' : p :: l <> []) by discriminate.
      specialize (IH (S count) (acc ++ [n]) rest Ne' ltac:(lia)). rewrite <- app_assoc in IH. cbn [app] in IH.
      change (written (fun n => [Name n]) close (n :: p :: l)) with (Name n :: Comma :: written (fun n => [Name n]) close (p :: l)).
      cbn [app names_loop tok_text]. rewrite Lt. exact IH.
  Qed.

  (** A pattern of up to sixteen fields is read as written, with and without the names of
      variables. *)
  Theorem C107_pattern_partial :
    forall (l : pat) rest, l <> [] -> length l <= 16 ->
    fields_loop (written pat_tok RBrace l ++ rest) 0 [] = Ok (map pair_of l, rest) /\
    names_loop RBrace (written (fun n => [Name n]) RBrace (map fst l) ++ rest) 0 [] = Ok (map fst l, rest) /\
    names_loop RParen (written (fun n => [Name n]) RParen (map fst l) ++ rest) 0 [] = Ok (map fst l, rest).
  Proof.
    intros l rest Ne L. assert (Ne' : map fst l <> []) by (destruct l; [contradiction|discriminate]).
    splits; [apply fields_read|apply names_read|apply names_read]; auto; rewrite ?map_length; auto.
  Qed.

  (** Seventeen fields or names are written behind the array. *)
  Theorem C107_seventeen_refuted :
    forall (l : pat) p q more rest, length l = 16 ->
    fields_loop (written pat_tok RBrace (l ++ p :: q :: more) ++ rest) 0 [] = UB.
  Proof.
    intros l p q more rest L.
    assert (K : forall (l : pat) count acc, count + length l = 16 ->
      fields_loop (written pat_tok RBrace (l ++ p :: q :: more) ++ rest) count acc = UB).
    { clear. induction l as [|[f o] l IH]; intros count acc L; cbn [length] in L.
      - assert (Lt : (16 <=? count) = true) by (apply Nat.leb_le; lia). cbn [app].
        change (written pat_tok RBrace (p :: q :: more)) with (pat_tok p ++ Comma :: written pat_tok RBrace (q :: more)).
        rewrite <- app_assoc. destruct p as [f [n|]]; cbn [pat_tok app fst snd fields_loop]; rewrite Lt; reflexivity.
      - assert (Lt : (16 <=? count) = false) by (apply Nat.leb_gt; lia).
        destruct (l ++ p :: q :: more) as [|x xs] eqn:E; [destruct l; discriminate|].
        specialize (IH (S count) (acc ++ [pair_of (f, o)]) ltac:(lia)).
        cbn [app]. rewrite E.
        change (written pat_tok RBrace ((f, o) :: x :: xs)) with (pat_tok (f, o) ++ Comma :: written pat_tok RBrace (x :: xs)).
        rewrite <- app_assoc. destruct o as [n|]; cbn [pat_tok app fst snd fields_loop tok_text]; rewrite Lt; exact IH. }
    apply K. exact L.
  Qed.

  (** Any operator is taken for the equals sign. *)
  Theorem C107_equals_refuted : forall op ts, expect_op (Op op :: ts) = Ok ts.
  Proof. reflexivity. Qed.

  (** Destructuring a struct declares every name with the value of its field and changes no
      other variable. *)
  Theorem C107_bind_partial :
    forall ps (v : sval V) e, fresh_names (map snd ps) e -> (forall p, In p ps -> In (fst p) (map fst v)) ->
    exists e', bind_fields ps v e = Ok e' /\
      (forall f n, In (f, n) ps -> get n e' = get f v) /\
      (forall n, ~ In n (map snd ps) -> get n e' = get n e).
  Proof.
    induction ps as [|[f n] ps IH]; intros v e F D; cbn [bind_fields map snd] in *.
    - exists e. splits; auto. intros f n [].
    - destruct (get f v) as [x|] eqn:E.
      2:{ exfalso. apply get_none in E. apply E, (D (f, n)). now left. }
      destruct (fresh_step _ _ _ x F) as [F1 F2]. rewrite declare_ok by exact F1. cbn [bind].
      destruct (IH v ((n, x) :: e) F2 ltac:(intros p I; apply D; now right)) as (e' & E' & K1 & K2).
      destruct F as [Nd _]. apply NoDup_cons_iff in Nd. destruct Nd as [Nn _].
      exists e'. splits; auto.
      + intros f' n' [I|I]; [|auto]. injection I as <- <-. rewrite K2 by exact Nn. unfold get at 1. cbn [find fst].
        now rewrite beq_bytes_refl.
      + intros m Nm. rewrite K2 by (intros K; apply Nm; now right). unfold get. cbn [find fst].
        destruct (beq_bytes n m) eqn:B; [|reflexivity]. apply beq_bytes_true in B. subst m. exfalso. apply Nm. now left.
  Qed.

  (** Destructuring a struct literal gives back what was put into it. *)
  Theorem C107_roundtrip_partial :
    forall def (inits order : list (bytes * expr V St)) value s ps e,
    (forall f x, In (f, x) inits -> In f def /\ pure x (value f)) -> Permutation inits order ->
    fresh_names (map snd ps) e -> (forall p, In p ps -> In (fst p) def) ->
    exists v s' e', literal zero def order s = Ok (v, s') /\ bind_fields ps v e = Ok e' /\
      forall f n, In (f, n) ps -> get n e' = Some (if has f (map fst inits) then value f else zero).
  Proof.
    intros def inits order value s ps e H P F D. do 2 eexists.
    pose proof (C107_literal_partial def inits order value s H P) as L.
    destruct (C107_bind_partial ps (map (fun f => (f, if has f (map fst inits) then value f else zero)) def) e F) as (e' & E & K & _).
    { intros p I. rewrite map_map. cbn [fst]. rewrite map_id. auto. }
    exists e'. split; [exact L|]. split; [exact E|]. intros f n I. rewrite (K f n I). apply (get_map f def (fun f => if has f (map fst inits) then value f else zero)).
    now apply (D (f, n)).
  Qed.

  (** The elements of a tuple, in order. *)
  Theorem C107_tuple_partial :
    forall ns (v : list V) e, fresh_names ns e -> length ns <= length v ->
    exists e', bind_tuple ns v e = Ok e' /\
      (forall i n, nth_error ns i = Some n -> get n e' = nth_error v i) /\
      (forall n, ~ In n ns -> get n e' = get n e).
  Proof.
    induction ns as [|n ns IH]; intros v e F L; cbn [bind_tuple length] in *.
    - exists e. splits; auto. intros [|i] n K; discriminate.
    - destruct v as [|x v]; [cbn in L; lia|]. cbn [length] in L.
      destruct (fresh_step _ _ _ x F) as [F1 F2]. rewrite declare_ok by exact F1. cbn [bind].
      destruct (IH v ((n, x) :: e) F2 ltac:(lia)) as (e' & E' & K1 & K2).
      destruct F as [Nd _]. apply NoDup_cons_iff in Nd. destruct Nd as [Nn _].
      exists e'. splits; auto.
      + intros [|i] m K; cbn [nth_error] in *; [|auto]. injection K as <-. rewrite K2 by exact Nn. unfold get. cbn [find fst].
        now rewrite beq_bytes_refl.
      + intros m Nm. rewrite K2 by (intros K; apply Nm; now right). unfold get. cbn [find fst].
        destruct (beq_bytes n m) eqn:B; [|reflexivity]. apply beq_bytes_true in B. subst m. exfalso. apply Nm. now left.
  Qed.
  (** Fewer names than elements are accepted; the rest is dropped. *)
  Theorem C107_arity_refuted :
    forall ns (v rest : list V) e, length ns = length v -> bind_tuple ns (v ++ rest) e = bind_tuple ns v e.
  Proof.
    induction ns as [|n ns IH]; intros [|x v] rest e L; try discriminate; cbn [bind_tuple app]; [reflexivity|].
    destruct (declare e n x); cbn [bind]; auto.
  Qed.

  (** ** Guards *)
  (** A guard goes on with the content of the variant asked for, and does not go on
      without it, if the else block leaves. *)
  Theorem C107_guard_partial :
    forall k n (t : tagged V) e, ~ In n (map fst e) -> In k [bs "Some"; bs "Ok"; bs "Err"] ->
    guard k n t Leaves e =
      Ok (if Bool.eqb (flag t) (negb (beq_bytes k (bs "Err")))
          then GoOn ((n, if beq_bytes k (bs "Err") then err t else val t) :: e) else Left).
  Proof.
    intros k n t e F [<-|[<-|[<-|[]]]]; unfold guard; cbn; destruct (flag t); cbn; rewrite ?declare_ok by exact F; reflexivity.
  Qed.
  (** Nothing makes the else block leave: then execution goes on with what is in the field. *)
  Theorem C107_fall_refuted :
    forall n (t : tagged V) e, ~ In n (map fst e) -> flag t = false ->
    guard (bs "Some") n t FallsThrough e = Ok (GoOn ((n, val t) :: e)).
  Proof. intros n t e F H. unfold guard. cbn. rewrite H. cbn. now rewrite declare_ok by exact F. Qed.
  (** Variants of other enums do not compile; any word that starts with else will do. *)
  Theorem C107_variant_refuted :
    (forall k n (t : tagged V) o e, ~ In k [bs "Some"; bs "Ok"; bs "Err"] -> guard k n t o e = Panic) /\
    (forall w, is_else (bs "else" ++ w) = true).
  Proof.
    split; [|reflexivity]. intros k n t o e H. unfold guard.
    destruct (beq_bytes k (bs "Some")) eqn:E1; [apply beq_bytes_true in E1; exfalso; apply H; rewrite E1; left; reflexivity|].
    destruct (beq_bytes k (bs "Ok")) eqn:E2; [apply beq_bytes_true in E2; exfalso; apply H; rewrite E2; right; left; reflexivity|].
    destruct (beq_bytes k (bs "Err")) eqn:E3; [apply beq_bytes_true in E3; exfalso; apply H; rewrite E3; right; right; left; reflexivity|].
    reflexivity.
  Qed.
End Values.
Print Assumptions C107_literal_partial.
Print Assumptions C107_pattern_partial.
Print Assumptions C107_seventeen_refuted.
Print Assumptions C107_equals_refuted.
Print Assumptions C107_bind_partial.
Print Assumptions C107_roundtrip_partial.
Print Assumptions C107_tuple_partial.
Print Assumptions C107_arity_refuted.
Print Assumptions C107_guard_partial.
Print Assumptions C107_fall_refuted.
Print Assumptions C107_variant_refuted.

(** With expressions that depend on what was evaluated before, the value of the literal is
    up to the C compiler. *)
Definition next : expr nat nat := fun s => (s, S s).
Theorem C107_order_refuted :
  let x := bs "x" in let y := bs "y" in
  (exists s, literal 0 [x; y] [(x, next); (y, next)] 5 = Ok ([(x, 5); (y, 6)], s)) /\
  (exists s, literal 0 [x; y] [(y, next); (x, next)] 5 = Ok ([(x, 6); (y, 5)], s)).
Proof. split; eexists; reflexivity. Qed.
Print Assumptions C107_order_refuted.

(** A vector literal with one value evaluates it once for every lane. *)
Theorem C107_splat_refuted :
  forall n s, vector_literal 0 n [next] s = (seq s n, s + n).
Proof.
  intros n s. unfold vector_literal. revert s. induction n as [|n IH]; intros s; cbn [repeat eval_all seq].
  - f_equal. lia.
  - unfold next at 1. rewrite IH. f_equal. lia.
Qed.
Print Assumptions C107_splat_refuted.

Example C107_case :
  let x := bs "x" in let y := bs "y" in let z := bs "z" in
  let one : expr nat nat := fun s => (1, s + 1) in let two : expr nat nat := fun s => (2, s * 2) in
  fields_loop (written pat_tok RBrace [(x, Some (bs "a")); (y, None); (z, None)]) 0 [] = Ok ([(x, bs "a"); (y, y); (z, z)], []) /\
  literal 0 [x; y; z] [(y, two); (x, one)] 3 = Ok ([(x, 1); (y, 2); (z, 0)], 7) /\
  bind_fields [(x, bs "a"); (y, y)] [(x, 1); (y, 2); (z, 0)] [(bs "q", 9)] = Ok [(y, 2); (bs "a", 1); (bs "q", 9)].
Proof. vm_compute. auto. Qed.

(** A declaration is accepted only if the names it makes are new and distinct; the variables there were are still there. *)
Lemma declare_new {V} (e : list (bytes * V)) n x e' : declare e n x = Ok e' -> ~ In n (map fst e) /\ e' = (n, x) :: e.
Proof.
  unfold declare. destruct (existsb _ e) eqn:X; [discriminate|]. intros H. injection H as <-. split; [|reflexivity].
  intros I. apply in_map_iff in I as ([m w] & <- & I). assert (Y : existsb (fun p => beq_bytes (fst p) m) e = true). { apply existsb_exists. exists (m, w). split; [exact I|apply beq_bytes_refl]. }
  cbn [fst] in X. congruence.
Qed.
Theorem C107_names : forall (V : Type) ps (v : list (bytes * V)) ns t e e',
  (bind_fields ps v e = Ok e' -> NoDup (map snd ps) /\ (forall n, In n (map snd ps) -> ~ In n (map fst e)) /\ exists g, e' = g ++ e) /\
  (bind_tuple ns t e = Ok e' -> NoDup ns /\ (forall n, In n ns -> ~ In n (map fst e)) /\ exists g, e' = g ++ e).
Proof.
  intros V. split.
  - revert e. induction ps as [|[f n] ps IH]; intros e H; cbn [bind_fields] in H.
    + injection H as <-. splits; [constructor|contradiction|]. now exists [].
    + destruct (get f v) as [x|]; [|discriminate]. apply bind_Ok in H as (e1 & D & H). apply declare_new in D as (D & ->). destruct (IH _ H) as (A & B & g & ->). cbn [map snd].
      splits.
      * constructor; [|exact A]. intros I. apply (B n I). now left.
      * intros m [<-|I]; [exact D|]. intros J. apply (B m I). now right.
      * exists (g ++ [(n, x)]). now rewrite <- app_assoc.
  - revert t e. induction ns as [|n ns IH]; intros t e H; cbn [bind_tuple] in H.
    + injection H as <-. splits; [constructor|contradiction|]. now exists [].
    + destruct t as [|x t]; [discriminate|]. apply bind_Ok in H as (e1 & D & H). apply declare_new in D as (D & ->). destruct (IH _ _ H) as (A & B & g & ->).
      splits.
      * constructor; [|exact A]. intros I. apply (B n I). now left.
      * intros m [<-|I]; [exact D|]. intros J. apply (B m I). now right.
      * exists (g ++ [(n, x)]). now rewrite <- app_assoc.
Qed.
Print Assumptions C107_names.
Example C107_names_used : bind_tuple [bs "a"; bs "b"] [1; 2] [(bs "c", 3)] = Ok [(bs "b", 2); (bs "a", 1); (bs "c", 3)] /\ bind_tuple [bs "a"; bs "a"] [1; 2] [] = Panic.
Proof. split; reflexivity. Qed.
