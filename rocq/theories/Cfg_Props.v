(** C68: @cfg includes a declaration exactly if its conditions hold. *)
From Verif Require Import Common Cfg_Model Cfg_Spec Cfg_Proofs.

(** The condition generated for any number of attributes NAME, not(NAME), and any and all over
    not(NAME)s is true for the preprocessor exactly if all of the attributes hold.  Missing: plain
    names inside any and all (see below). *)
Theorem C68_condition_partial : forall env cs r,
  cs <> [] -> Forall writable cs -> starts_item r ->
  exists cond, attrs (S (length cs)) None (show_clauses cs ++ r) = Ok (Some cond, r) /\
    if_value env cond = Some (forallb (clause_true env) cs).
Proof.
  intros env cs r N W S. exists (conj cs). split.
  - rewrite (attrs_ok cs W None r) by (auto; lia). now destruct cs.
  - apply if_conj; [exact N|]. eapply Forall_impl; [|exact W]. apply writable_nonempty.
Qed.

(** Whatever is declared, if only functions, impl blocks, structs, enums, traits and globals carry
    conditions and globals have different names, preprocessing the generated file gives what the
    program without the declarations whose conditions fail would give. *)
Theorem C68_select_partial : forall env ds items,
  Forall2 parsed ds items -> Forall (fun d => Forall writable (dcfg d)) ds ->
  Forall (fun d => dcfg d = [] \/ In (dkind d) [KFn; KImpl; KStruct; KEnum; KTrait; KGlobal]) ds ->
  NoDup (map iname (filter (of_kind [KGlobal]) items)) ->
  cpp env [] (emit items) = Some (emit (chosen env ds)).
Proof.
  intros env ds items P W K N.
  assert (selected env items = chosen env ds /\ Forall (good_item env) items /\
          Forall (fun i => icond i = None \/ In (ikind i) [KFn; KImpl; KStruct; KEnum; KTrait; KGlobal]) items) as (E & G & Kd).
  { clear N. induction P as [|d i ds items [Pk [Pn [fuel Pc]]] P IH]; [repeat split; constructor|].
    inversion W as [|? ? Wd W']; inversion K as [|? ? Kd K']; subst. destruct (IH W' K') as (E & G & Kds). clear IH.
    assert (icond i = match dcfg d with [] => None | _ => Some (conj (dcfg d)) end) as C.
    { assert (forall f1 f2 c toks r1, attrs f1 c toks = Ok r1 -> (f1 <= f2)%nat -> attrs f2 c toks = Ok r1) as Mono.
      { clear. induction f1 as [|f1 IH]; intros f2 c toks r1 H L; [discriminate|]. destruct f2 as [|f2]; [lia|].
        cbn [attrs] in *. destruct toks as [|[] [|[] toks]]; try exact H; try discriminate.
        destruct (beq_bytes n (bs "cfg")); [|exact H]. destruct (cfg_attr ZAt c toks) as [[c' r']| | |]; cbn [bind] in *; try discriminate.
        apply IH; [exact H|lia]. }
      apply (Mono _ (fuel + S (length (dcfg d)))%nat) in Pc; [|lia].
      rewrite (attrs_ok _ Wd None [ZOther] _ I) in Pc by lia. injection Pc as Pc. rewrite <- Pc. now destruct (dcfg d). }
    assert (keep env i = forallb (clause_true env) (dcfg d) /\ good_item env i) as [Ke Go].
    { unfold keep, good_item. rewrite C. destruct (dcfg d) as [|c cs] eqn:D; [split; [reflexivity|exact I]|].
      rewrite if_conj; [split; [reflexivity|discriminate]|discriminate|]. eapply Forall_impl; [|exact Wd]. apply writable_nonempty. }
    splits.
    - unfold selected, chosen in *. cbn [filter]. rewrite Ke. destruct (forallb _ (dcfg d)); [|exact E]. cbn [map]. now rewrite E, Pk, Pn.
    - now constructor.
    - constructor; [|exact Kds]. rewrite C, Pk. destruct Kd as [-> |Kd]; [now left|now right]. }
  rewrite <- E. clear E P W K ds.
  assert (clean env (emit items) (emit (selected env items))) as C.
  { assert (forall ks p, clean env (pass_over ks (guarded p) items) (pass_over ks (guarded p) (selected env items))) as Gd.
    { intros ks p. apply clean_pass. eapply Forall_impl; [|exact G]. intros i Gi _. now apply clean_guarded. }
    assert (forall k p, ~ In k [KFn; KImpl; KStruct; KEnum; KTrait; KGlobal] ->
      Forall (fun i => of_kind [k] i = true -> clean env (bare p i) (if keep env i then bare p (fixed i) else [])) items) as Br.
    { intros k p H. eapply Forall_impl; [|exact Kd]. cbn beta. intros i [Ki|Ki] O; [now apply clean_bare|]. exfalso. apply H.
      unfold of_kind in O. cbn [existsb] in O. destruct k, (ikind i); try discriminate O; exact Ki. }
    assert (forall k, ~ In k [KFn; KImpl; KStruct; KEnum; KTrait; KGlobal] -> forall i, In i items -> of_kind [k] i = true -> icond i = None) as Un.
    { intros k H i I O. rewrite Forall_forall in Kd. destruct (Kd i I) as [Ki|Ki]; [exact Ki|]. exfalso. apply H.
      unfold of_kind in O. cbn [existsb] in O. destruct k, (ikind i); try discriminate O; exact Ki. }
    unfold emit. repeat apply clean_app; try apply Gd.
    - rewrite rev_selected. apply clean_pass. apply Forall_rev. apply Br. cbn. intuition discriminate.
    - apply clean_pass. apply Br. cbn. intuition discriminate.
    - rewrite rev_selected, filter_selected.
      assert (NoDup (map iname (filter (of_kind [KGlobal]) (rev items)))) as N'.
      { rewrite filter_rev_, map_rev. now apply NoDup_rev. }
      rewrite !merge_distinct, !app_nil_r by (rewrite app_nil_r; auto using NoDup_selected).
      rewrite rev_selected. apply clean_map. apply Forall_rev. apply Forall_forall. intros i I. apply filter_In in I. destruct I as [I _].
      apply in_rev in I. apply clean_guarded. rewrite Forall_forall in G. now apply G.
    - apply clean_pass. apply Forall_forall. intros i I O. destruct (of_kind [KImplTrait] i) eqn:T.
      + replace (of_kind [KImplTrait] (fixed i)) with true by (symmetry; exact T). apply clean_opened. apply (Un KImplTrait); auto. cbn. intuition discriminate.
      + replace (of_kind [KImplTrait] (fixed i)) with false by (symmetry; exact T). apply clean_guarded. rewrite Forall_forall in G. now apply G.
    - apply clean_pass. apply Br. cbn. intuition discriminate.
    - apply clean_pass. apply Br. cbn. intuition discriminate. }
  specialize (C []). rewrite app_nil_r in C. rewrite C. cbn. now rewrite app_nil_r.
Qed.

(** any and all stop the compiler on every list with a plain name: the code tests the @ sign
    instead of the name it has read. *)
Theorem C68_any_refuted : forall ls cond r,
  Exists (fun l => exists n, l = Has n /\ n <> bs "not") ls ->
  forall c, c = Any ls \/ c = All ls -> attrs 1 cond (show_clause c ++ r) = Panic.
Proof.
  intros ls cond r E c C. rewrite (show_head c). cbn [app attrs]. change (beq_bytes (bs "cfg") (bs "cfg")) with true. cbv iota.
  assert (cfg_attr ZAt cond (skipn 2 (show_clause c) ++ r) = Panic) as ->; [|reflexivity].
  destruct C as [-> | ->]; unfold cfg_attr; cbn [show_clause skipn app];
    [change (beq_bytes (bs "any") (bs "not")) with false; change (beq_bytes (bs "any") (bs "any")) with true
    |change (beq_bytes (bs "all") (bs "not")) with false; change (beq_bytes (bs "all") (bs "any")) with false;
     change (beq_bytes (bs "all") (bs "all")) with true]; cbv iota; cbn [orb];
    rewrite <- !app_assoc; cbn [app]; rewrite list_panic; auto; rewrite app_length; pose proof (show_len ls); lia.
Qed.

(** Raw blocks, tests and the first of the two lines for an alias are generated whatever the
    condition. *)
Theorem C68_ignored_refuted : forall env c n,
  if_value env c = Some false ->
  cpp env [] (emit [mkitem KRaw n (Some c)]) = Some [Part PDef KRaw n] /\
  cpp env [] (emit [mkitem KTest n (Some c)]) = Some [Part PBody KTest n] /\
  cpp env [] (emit [mkitem KAlias n (Some c)]) = Some [Part PProto KAlias n] /\
  selected env [mkitem KRaw n (Some c)] = [].
Proof. intros env c n F. unfold selected, keep. cbn. rewrite F. splits; reflexivity. Qed.

(** With a condition on the implementation of a trait the generated file is not C: an #if stays
    open. *)
Theorem C68_trait_refuted : forall env c n, cpp env [] (emit [mkitem KImplTrait n (Some c)]) = None.
Proof. intros env c n. cbn. destruct (if_value env c) as [[|]|]; cbn; try reflexivity; destruct (if_value env c); reflexivity. Qed.

(** Of globals with one name only the last is generated, even if their conditions exclude each
    other: with A defined this program has no global X. *)
Theorem C68_global_refuted :
  let x := bs "X" in let a := [Tdef (bs "A")] in let na := [Tbang; Tdef (bs "A")] in
  let env n := beq_bytes n (bs "A") in
  cpp env [] (emit [mkitem KGlobal x (Some a); mkitem KGlobal x (Some na)]) = Some [] /\
  selected env [mkitem KGlobal x (Some a); mkitem KGlobal x (Some na)] = [mkitem KGlobal x None].
Proof. cbv zeta. splits; vm_compute; reflexivity. Qed.

(** The condition of an import applies to the first declaration of the file only, and replaces
    that declaration's own: importing a file without a condition removes it. *)
Theorem C68_import_refuted : forall c i j r,
  attach c (i :: j :: r) = mkitem (ikind i) (iname i) c :: j :: r /\
  (forall own, icond i = Some own -> map icond (attach None [i]) = [None]).
Proof. split; reflexivity. Qed.

(** One declaration under two attributes, one without *)
Example C68_example :
  let d1 := mkdecl [One (Has (bs "A")); Any [Not (bs "B"); Not (bs "C")]] KFn (bs "f") in
  let d2 := mkdecl [] KTest (bs "t") in
  let c := [Tdef (bs "A"); Tand; Tlp; Tbang; Tdef (bs "B"); Tor; Tbang; Tdef (bs "C"); Trp] in
  let items := [mkitem KFn (bs "f") (Some c); mkitem KTest (bs "t") None] in
  Forall2 parsed [d1; d2] items /\ Forall (fun d => Forall writable (dcfg d)) [d1; d2] /\
  NoDup (map iname (filter (of_kind [KGlobal]) items)) /\
  cpp (fun n => beq_bytes n (bs "A")) [] (emit items) = Some [Part PProto KFn (bs "f"); Part PBody KTest (bs "t"); Part PBody KFn (bs "f")] /\
  cpp (fun n => true) [] (emit items) = Some [Part PBody KTest (bs "t")].
Proof.
  cbv zeta. splits.
  - repeat constructor; cbn [dcfg]; exists 3%nat; vm_compute; reflexivity.
  - repeat constructor; try discriminate; eexists; reflexivity.
  - constructor.
  - vm_compute; reflexivity.
  - vm_compute; reflexivity.
Qed.

Print Assumptions C68_condition_partial.
Print Assumptions C68_select_partial.
Print Assumptions C68_any_refuted.
Print Assumptions C68_ignored_refuted.
Print Assumptions C68_trait_refuted.
Print Assumptions C68_global_refuted.
Print Assumptions C68_import_refuted.
