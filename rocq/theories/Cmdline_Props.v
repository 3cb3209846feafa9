(** C100: the command line. *)
From Verif Require Import Common Flags_Model Flags_Spec Flags_Proofs Flags_Props Cmdline_Model Cmdline_Spec Cmdline_Proofs.
Local Open Scope nat_scope.

Lemma flags_fit : forall max l, (N.of_nat max < 2 ^ 64)%N -> Forall cmdline_ok l -> needs (map cmdline_cost l) <= max ->
  exists d, main_flags [] max l = Ok d /\ arg_list_add_from_string d = Ok (map argument l).
Proof.
  intros max l M F N0. destruct (C40_round_trip_partial max l [] M F (Forall_nil _)) as (d & E & A).
  - cbn [map]. now rewrite app_nil_r.
  - exists d. split; auto. cbn [fold_left] in A. now rewrite app_nil_r in A.
Qed.

(** Every option of a command line has the effect it is documented to have, wherever it stands. *)
Theorem C100_options_partial : forall w modes items first rest,
  command w modes -> Forall item_ok items -> quiet_line items -> fits items -> files items = first :: rest ->
  exists c, main (w :: flat_map show items) = Ok (Start c) /\
    input c = Some first /\ extra c = firstn 64 rest /\ output c = last_of (outputs items) /\
    (forall s, In s (on c) <-> In s modes \/ exists x, In (ISwitch x) items /\ In x (names s)) /\
    cc c = match last_of (compilers items) with Some x => x | None => bs "gcc" end /\
    (exists ns, Forall2 defines_name (macros items) ns /\ defines c = firstn 64 ns) /\ includes c = firstn 64 (dirs items) /\
    arg_list_add_from_string (gcc_flags c) = Ok (map argument (c_pairs items)) /\
    arg_list_add_from_string (link c) = Ok (map argument (link_pairs items)).
Proof.
  intros w modes items first rest Cm F Q (F1 & N1 & F2 & N2) Fi.
  destruct (flags_fit 4096 (c_pairs items)) as (g & G & GA); auto; [vm_compute; reflexivity|].
  destruct (flags_fit 1024 (link_pairs items)) as (k & K & KA); auto; [vm_compute; reflexivity|].
  destruct (do_fields items (turn modes init) g k F G K) as (c & E & E1 & E2 & E3 & E4 & E5 & E6 & E7 & E8).
  exists c. cbn [turn init input extra output on cc defines includes files_of] in *.
  rewrite Fi in E3. injection E3 as E3 E3'.
  assert (Go : go (flat_map show items) (turn modes init) = Ok (Start c)).
  { unfold go. pose proof (parse_items items [] (turn modes init) F) as P. rewrite app_nil_r in P. rewrite P, E. cbn [bind parse].
    rewrite message_none by exact Q. now rewrite E3. }
  splits; auto.
  - destruct Cm as [(-> & ->)|[(-> & ->)|[(-> & ->)|(-> & ->)]]]; exact Go.
  - rewrite E3'. rewrite push_all by (cbn; lia). reflexivity.
  - rewrite E4. now destruct (last_of (outputs items)).
  - intros s. rewrite E5, app_nil_r. tauto.
  - exists (map before_eq (macros items)). split.
    + clear. induction (macros items); constructor; auto using before_eq_ok.
    + rewrite E7. rewrite push_all by (cbn; lia). reflexivity.
  - rewrite E8. rewrite push_all by (cbn; lia). reflexivity.
  - now rewrite E1.
  - now rewrite E2.
Qed.
Example C100_options_partial_ex :
  let items := [IFile (bs "main.zc"); IInclude true (bs "../inc"); ISwitch (bs "-q"); IDefine false (bs "N=1"); ILib true 108%N (bs "m"); IOutput false (bs "a"); IPass (bs "-Wall")] in
  Forall item_ok items /\ quiet_line items /\ fits items /\ files items = [bs "main.zc"] /\
  flat_map show items = [bs "main.zc"; bs "-I../inc"; bs "-q"; bs "-D"; bs "N=1"; bs "-lm"; bs "-o"; bs "a"; bs "-Wall"] /\
  map argument (c_pairs items) = [bs "-I../inc"; bs "-DN=1"; bs "-Wall"].
Proof.
  cbv zeta. splits; try reflexivity.
  - repeat (apply Forall_cons || apply Forall_nil); cbn [item_ok].
    + intros (r & E). discriminate.
    + intros _. discriminate.
    + exists Quiet. right. left. reflexivity.
    + intros _. discriminate.
    + split; [intros _; discriminate|now right].
    + intros _. discriminate.
    + splits.
      * eexists. reflexivity.
      * intros (s & I). destruct s; cbn in I; repeat (destruct I as [I|I]; [discriminate|]); exact I.
      * intros I. cbn in I. repeat (destruct I as [I|I]; [discriminate|]); exact I.
      * discriminate.
      * intros k r E. injection E as <- _. intros I. cbn in I. repeat (destruct I as [I|I]; [discriminate|]); exact I.
  - intros w I M. cbn in M. cbn in I.
    destruct M as [<-|[<-|[<-|[]]]]; repeat (destruct I as [I|I]; [discriminate|]); exact I.
  - unfold fits. splits; try (vm_compute; lia);
      repeat (apply Forall_cons || apply Forall_nil); unfold cmdline_ok; repeat apply conj; try discriminate; try (cbn; lia);
      try (unfold clean, white; cbn; repeat constructor; try discriminate; cbn; intuition discriminate);
      try (unfold has_blank; cbn; intuition discriminate); exact I.
Qed.

(** Without a command the compiler builds: a first word with a dot is the file, one with a dash an
    option. *)
Theorem C100_no_command : forall (f : bytes) (rest : list bytes),
  (In 46%N f /\ ~ (exists r, f = 45%N :: r) \/ (exists r, f = 45%N :: r) /\ ~ In 46%N f /\ f <> bs "--help" /\ f <> bs "-h") ->
  main (f :: rest) = main (bs "build" :: f :: rest).
Proof.
  intros f rest H. assert (C : forall w, (~ In 46%N w /\ ~ exists r, w = 45%N :: r) -> beq_bytes f w = false).
  { intros w (A & B). destruct (beq_bytes f w) eqn:E; auto. apply beq_bytes_true in E. subst. tauto. }
  assert (D : has_dot f = true <-> In 46%N f).
  { unfold has_dot. rewrite existsb_exists. split; [intros (x & I & E); apply N.eqb_eq in E; now subst|eexists; split; eauto]. }
  change (main (bs "build" :: f :: rest)) with (go (f :: rest) init).
  unfold main. rewrite !C by (split; [cbn; intuition discriminate|intros (r & E); discriminate]).
  destruct (beq_bytes f (bs "--help")) eqn:E1.
  { apply beq_bytes_true in E1. subst. destruct H as [(A & B)|(_ & _ & A & _)]; [exfalso; apply B; eexists; reflexivity|congruence]. }
  destruct (beq_bytes f (bs "-h")) eqn:E2.
  { apply beq_bytes_true in E2. subst. destruct H as [(A & B)|(_ & _ & _ & A)]; [exfalso; apply B; eexists; reflexivity|congruence]. }
  cbn [orb]. destruct H as [(A & B)|((r & ->) & A & _)].
  - rewrite (proj2 D A). unfold go. pose proof (parse_item (IFile f) rest init B) as P. cbn [show app does bind] in P. rewrite P.
    cbn [message]. destruct (beq_bytes f (bs "--version")) eqn:E3; [apply beq_bytes_true in E3; subst; exfalso; apply B; eexists; reflexivity|].
    destruct (beq_bytes f (bs "-V")) eqn:E4; [apply beq_bytes_true in E4; subst; exfalso; apply B; eexists; reflexivity|].
    destruct (beq_bytes f (bs "--paths")) eqn:E5; [apply beq_bytes_true in E5; subst; exfalso; apply B; eexists; reflexivity|]. reflexivity.
  - destruct (has_dot (45%N :: r)); [exfalso; apply A; now apply D|]. reflexivity.
Qed.
Example C100_no_command_ex : In 46%N (bs "main.zc") /\ ~ In 46%N (bs "-O2").
Proof. split; cbn; intuition discriminate. Qed.
(** False of a first option with a dot: it is taken for the file. *)
Theorem C100_dot_refuted : forall (d f : bytes) (rest : list bytes) c,
  In 46%N d -> main ((bs "-I" ++ d) :: f :: rest) = Ok (Start c) -> input c = Some (bs "-I" ++ d).
Proof.
  intros d f rest c I E. 
  assert (KP : forall n args c1 c2 x, length args <= n -> parse args c1 = Ok (inr c2) -> input c1 = Some x -> input c2 = Some x).
  { assert (AF : forall p v c1 c2, add_flag p v c1 = Ok c2 -> input c2 = input c1).
    { intros p v c1 c2. unfold add_flag. destruct (main_append_flag _ _ _ _); cbn [bind]; intros Q; try discriminate. now injection Q as <-. }
    assert (AL : forall p v c1 c2, add_link p v c1 = Ok c2 -> input c2 = input c1).
    { intros p v c1 c2. unfold add_link. destruct (main_append_flag _ _ _ _); cbn [bind]; intros Q; try discriminate. now injection Q as <-. }
    induction n as [|n IH]; intros args c1 c2 x L P X.
    { destruct args; [|cbn in L; lia]. cbn in P. now injection P as <-. }
    destruct args as [|a args]; [cbn in P; now injection P as <-|]. cbn [length] in L. cbn [parse] in P.
    assert (N1 : forall y r, args = y :: r -> length r <= n) by (intros y r ->; cbn in L; lia).
    destruct (find_switch a switches) as [s|]; [apply (IH _ _ _ x) in P; [auto|lia|]; cbn; destruct s as [|[] [|[] [|]]]; auto|].
    destruct (beq_bytes a (bs "--cc")).
    { destruct args as [|y r]; [now injection P as <-|]. eapply IH; [|exact P|]; eauto. }
    destruct (is_prefix (bs "-o") a).
    { destruct (2 <? length a); [eapply IH; [|exact P|]; eauto; lia|]. destruct args as [|y r]; [discriminate|]. eapply IH; [|exact P|]; eauto. }
    destruct (is_prefix (bs "-I") a).
    { destruct (2 <? length a).
      - destruct (add_flag _ _ _) eqn:A; try discriminate. cbn [bind] in P. eapply IH; [|exact P|]; [lia|]. apply AF in A. cbn. congruence.
      - destruct args as [|y r]; [now injection P as <-|]. destruct (add_flag _ _ _) eqn:A; try discriminate. cbn [bind] in P. eapply IH; [|exact P|]; eauto. apply AF in A. cbn. congruence. }
    destruct (is_prefix (bs "-L") a || is_prefix (bs "-l") a).
    { destruct (2 <? length a).
      - destruct (add_link _ _ _) eqn:A; try discriminate. cbn [bind] in P. eapply IH; [|exact P|]; [lia|]. apply AL in A. congruence.
      - destruct args as [|y r]; [now injection P as <-|]. destruct (add_link _ _ _) eqn:A; try discriminate. cbn [bind] in P. eapply IH; [|exact P|]; eauto. apply AL in A. congruence. }
    destruct (is_prefix (bs "-O") a).
    { destruct (2 <? length a).
      - destruct (add_flag _ _ _) eqn:A; try discriminate. cbn [bind] in P. eapply IH; [|exact P|]; [lia|]. apply AF in A. congruence.
      - destruct args as [|y r]; [now injection P as <-|]. destruct (add_flag _ _ _) eqn:A; try discriminate. cbn [bind] in P. eapply IH; [|exact P|]; eauto. apply AF in A. congruence. }
    destruct (beq_bytes a (bs "-g")).
    { destruct (add_flag _ _ _) eqn:A; try discriminate. cbn [bind] in P. eapply IH; [|exact P|]; [lia|]. apply AF in A. congruence. }
    destruct (is_prefix (bs "-D") a).
    { destruct (2 <? length a).
      - destruct (add_flag _ _ _) eqn:A; try discriminate. cbn [bind] in P. eapply IH; [|exact P|]; [lia|]. apply AF in A. cbn in A. congruence.
      - destruct args as [|y r].
        + destruct (add_flag _ _ _) eqn:A; try discriminate. cbn [bind] in P. injection P as <-. apply AF in A. congruence.
        + destruct (add_flag _ _ _) eqn:A; try discriminate. cbn [bind] in P. eapply IH; [|exact P|]; eauto. apply AF in A. cbn in A. congruence. }
    destruct (dash a).
    { destruct (add_flag _ _ _) eqn:A; try discriminate. cbn [bind] in P. eapply IH; [|exact P|]; [lia|]. apply AF in A. congruence. }
    eapply IH; [|exact P|]; [lia|]. unfold add_file. now rewrite X. }
  assert (M : main ((bs "-I" ++ d) :: f :: rest) = if has_dot (bs "-I" ++ d) then go (f :: rest) (set_input (bs "-I" ++ d) init) else go ((bs "-I" ++ d) :: f :: rest) init) by reflexivity.
  rewrite M in E. clear M. replace (has_dot (bs "-I" ++ d)) with true in E.
  2:{ symmetry. unfold has_dot. apply existsb_exists. exists 46%N. split; [|reflexivity]. right. right. exact I. }
  unfold go in E. destruct (parse (f :: rest) (set_input (bs "-I" ++ d) init)) as [[z|c0]| | |] eqn:P; cbn [bind] in E; try discriminate.
  apply (KP _ _ _ _ (bs "-I" ++ d) (le_n _)) in P; [|reflexivity].
  destruct (message (f :: rest)) as [o|] eqn:Me.
  { exfalso. assert (MM : forall l o, message l = Some o -> forall c, o <> Start c).
    { clear. induction l as [|a r IH]; cbn [message]; [discriminate|]. intros o H c. destruct (_ || _); [injection H as <-; discriminate|].
      destruct (beq_bytes a (bs "--paths")); [injection H as <-; discriminate|]. eauto. }
    injection E as E. exact (MM _ _ Me c E). }
  rewrite P in E. injection E as <-. exact P.
Qed.
Example C100_dot_refuted_ex : exists c, main [bs "-I../inc"; bs "main.zc"] = Ok (Start c) /\ input c = Some (bs "-I../inc") /\ extra c = [bs "main.zc"].
Proof. eexists. split; [vm_compute; reflexivity|]. split; reflexivity. Qed.
(** False of a mistyped command: it is dropped, and the program is built. *)
Theorem C100_command_refuted : forall (w : bytes) (rest : list bytes),
  ~ In w (map bs ["lsp"; "repl"; "transpile"; "run"; "check"; "build"]%string) -> ~ In 46%N w -> ~ (exists r, w = 45%N :: r) ->
  main (w :: rest) = main (bs "build" :: rest).
Proof.
  intros w rest N0 ND NH. change (main (bs "build" :: rest)) with (go rest init). unfold main.
  assert (C : forall x, In x (map bs ["lsp"; "repl"; "transpile"; "run"; "check"; "build"]%string) \/ (exists r, x = 45%N :: r) -> beq_bytes w x = false).
  { intros x H. destruct (beq_bytes w x) eqn:E; auto. apply beq_bytes_true in E. subst. tauto. }
  rewrite !C by (first [left; cbn; tauto|right; eexists; reflexivity]). cbn [orb].
  destruct (has_dot w) eqn:E; [unfold has_dot in E; apply existsb_exists in E as (x & I & E); apply N.eqb_eq in E; subst; contradiction|].
  destruct (dash w) eqn:E2; [|reflexivity]. destruct w as [|x r]; [discriminate|]. cbn in E2. apply N.eqb_eq in E2. subst. exfalso. apply NH. eauto.
Qed.
Example C100_command_refuted_ex : main [bs "chekc"; bs "a.zc"] = main [bs "build"; bs "a.zc"] /\ main [bs "program"] = Ok (Exit 1).
Proof. split; vm_compute; reflexivity. Qed.
Lemma strncat_ok_ub d mx c x : strncat d mx c x <> Panic /\ strncat d mx c x <> Fuel.
Proof. unfold strncat. destruct (_ <? mx)%nat; split; discriminate. Qed.
Lemma append_ok_ub d mx p v : main_append_flag d mx p v <> Panic /\ main_append_flag d mx p v <> Fuel.
Proof.
  assert (B : forall A (x : res A) (f : A -> res bytes), x <> Panic /\ x <> Fuel -> (forall a, f a <> Panic /\ f a <> Fuel) -> bind x f <> Panic /\ bind x f <> Fuel).
  { intros A x f (H1 & H2) H. destruct x; cbn [bind]; auto; try contradiction. split; discriminate. }
  assert (B2 : forall A (x : res bytes) (f : bytes -> res A), x <> Panic /\ x <> Fuel -> (forall a, f a <> Panic /\ f a <> Fuel) -> bind x f <> Panic /\ bind x f <> Fuel).
  { intros A x f (H1 & H2) H. destruct x; cbn [bind]; auto; try contradiction. split; discriminate. }
  unfold main_append_flag. apply B.
  { destruct (_ && _); [|split; discriminate]. apply B2; [apply strncat_ok_ub|]. split; discriminate. }
  intros [d1 c1]. apply B; [apply strncat_ok_ub|]. intros d2. destruct v as [v|]; [|split; discriminate]. apply B.
  { destruct (has_space v); [|split; discriminate]. apply B2; [apply strncat_ok_ub|]. split; discriminate. }
  intros [d3 c3]. apply B; [apply strncat_ok_ub|]. intros d4. destruct (has_space v); [apply strncat_ok_ub|split; discriminate].
Qed.
(** False of -O alone, which C compilers know: it takes the file for its level. *)
Theorem C100_level_refuted : forall f : bytes, ~ In f messages -> main [bs "build"; bs "-O"; f] = Ok (Exit 1) \/ main [bs "build"; bs "-O"; f] = UB.
Proof.
  intros f M. change (main [bs "build"; bs "-O"; f]) with (go [bs "-O"; f] init). unfold go.
  change (parse [bs "-O"; f] init) with (do c <- add_flag (bs "-O") (Some f) init; Ok (inr c) : res (Z + config)).
  unfold add_flag.
  destruct (main_append_flag (gcc_flags init) 4096 (bs "-O") (Some f)) eqn:E; cbn [bind]; auto.
  - rewrite message_none; [left; reflexivity|]. intros w [<-|[<-|[]]]; auto. cbn. intuition discriminate.
  - exfalso. exact (proj1 (append_ok_ub (gcc_flags init) 4096 (bs "-O") (Some f)) E).
  - exfalso. exact (proj2 (append_ok_ub (gcc_flags init) 4096 (bs "-O") (Some f)) E).
Qed.
Example C100_level_refuted_ex : main [bs "build"; bs "-O"; bs "main.zc"] = Ok (Exit 1).
Proof. vm_compute. reflexivity. Qed.
(** False of an option whose value is missing at the end: nothing is said. *)
Theorem C100_missing_refuted : forall w modes items o,
  command w modes -> Forall item_ok items -> In o [bs "--cc"; bs "-I"; bs "-L"; bs "-l"; bs "-O"] ->
  main (w :: flat_map show items ++ [o]) = main (w :: flat_map show items).
Proof.
  intros w modes items o C F I.
  assert (G : forall c, go (flat_map show items ++ [o]) c = go (flat_map show items) c).
  { intros c. unfold go. pose proof (parse_items items [] c F) as P. rewrite app_nil_r in P. rewrite P, (parse_items items [o] c F).
    assert (E : forall c, parse [o] c = parse [] c) by (intros c1; cbn in I; destruct I as [<-|[<-|[<-|[<-|[<-|[]]]]]]; reflexivity).
    assert (M : message (flat_map show items ++ [o]) = message (flat_map show items)).
    { clear -I. induction (flat_map show items) as [|a r IH]; cbn [message app].
      - cbn in I; destruct I as [<-|[<-|[<-|[<-|[<-|[]]]]]]; reflexivity.
      - now rewrite IH. }
    rewrite M. destruct (do_all items c); cbn [bind]; auto. now rewrite E. }
  destruct C as [(-> & ->)|[(-> & ->)|[(-> & ->)|(-> & ->)]]]; apply G.
Qed.
Example C100_missing_refuted_ex : main [bs "build"; bs "a.zc"; bs "--cc"] = main [bs "build"; bs "a.zc"].
Proof. vm_compute. reflexivity. Qed.
(** False of options of the C compiler with a value in the next word: the value is taken for a file. *)
Theorem C100_two_words_refuted : forall w modes f v items c,
  command w modes -> item_ok (IPass f) -> item_ok (IFile v) -> Forall item_ok items ->
  main (w :: f :: v :: flat_map show items) = Ok (Start c) -> input c = Some v.
Proof.
  intros w modes f v items c Cm F V Fi E.
  assert (G : go (f :: v :: flat_map show items) (turn modes init) = Ok (Start c)).
  { destruct Cm as [(-> & ->)|[(-> & ->)|[(-> & ->)|(-> & ->)]]]; exact E. }
  unfold go in G.
  assert (F3 : Forall item_ok (IPass f :: IFile v :: items)) by auto.
  pose proof (parse_items (IPass f :: IFile v :: items) [] (turn modes init) F3) as P. cbn [flat_map show app] in P. rewrite app_nil_r in P.
  rewrite P in G. destruct (do_all (IPass f :: IFile v :: items) (turn modes init)) as [c0| | |] eqn:D; cbn [bind parse] in G; try discriminate.
  assert (I0 : input c0 = Some v).
  { cbn [do_all does] in D. unfold add_flag in D. destruct (main_append_flag _ _ _ _); cbn [bind] in D; try discriminate.
    cbn [add_file input turn init set_input] in D.
    assert (K : forall l c1 c2, input c1 = Some v -> do_all l c1 = Ok c2 -> input c2 = Some v).
    { clear. induction l as [|i l IH]; intros c1 c2 I D; [cbn in D; now injection D as <-|]. cbn [do_all] in D.
      destruct (does i c1) as [c3| | |] eqn:E; cbn [bind] in D; try discriminate. apply (IH c3 c2); auto. clear D IH.
      destruct i; cbn [does] in E; unfold add_flag, add_link in E;
        try (injection E as <-; cbn; auto; fail);
        try (destruct (main_append_flag _ _ _ _); cbn [bind] in E; try discriminate; injection E as <-; cbn; auto; fail).
      - injection E as <-. cbn. rewrite <- I. apply switch_cc_rest.
      - injection E as <-. unfold add_file. now rewrite I. }
    now apply K in D. }
  rewrite I0 in G. destruct (message _) as [o|] eqn:Me.
  { exfalso. assert (MM : forall l o, message l = Some o -> forall c, o <> Start c).
    { clear. induction l as [|a r IH]; cbn [message]; [discriminate|]. intros o H c. destruct (_ || _); [injection H as <-; discriminate|].
      destruct (beq_bytes a (bs "--paths")); [injection H as <-; discriminate|]. eauto. }
    injection G as G. exact (MM _ _ Me c G). }
  injection G as <-. exact I0.
Qed.
Example C100_two_words_refuted_ex : exists c, main [bs "build"; bs "-include"; bs "x.h"; bs "a.zc"] = Ok (Start c) /\ input c = Some (bs "x.h").
Proof. eexists. split; [vm_compute; reflexivity|]. reflexivity. Qed.

(** The command for the C compiler. *)
Theorem C100_compile_partial : forall c cflags links D L async exe there outfile temp cfiles G,
  cmdline_ok (cc c, None) -> arg_list_add_from_string (gcc_flags c) = Ok G ->
  arg_list_add_from_string cflags = Ok D -> arg_list_add_from_string links = Ok L ->
  exists l, compile_args c cflags links async exe there outfile temp cfiles = Ok l /\
   exists free quiet libs std, args l = [cc c] ++ G ++ D ++ free ++ quiet ++ [bs "-o"; outfile; temp] ++ cfiles ++ libs ++ L ++ std /\
     (In Freestanding (on c) -> free = [bs "-ffreestanding"] /\ libs = []) /\
     (~ In Freestanding (on c) -> free = [] /\ libs = bs "-lm" :: if async then [bs "-lpthread"] else []) /\
     (In Quiet (on c) -> quiet = [bs "-w"]) /\ (~ In Quiet (on c) -> quiet = []) /\
     Forall (fun a => exists d, a = bs "-I" ++ d) std.
Proof.
  intros c cflags links D L async exe there outfile temp cfiles G CC EG ED EL. unfold compile_args, add_string.
  rewrite (one_word _ CC), EG, ED, EL. cbn [bind].
  repeat match goal with |- context[add_all ?l ?xs] =>
    lazymatch l with
    | arg_list_init => destruct (add_all_ok xs l) as (? & -> & ? & ?); [cbn; lia|cbn [bind]]
    | _ => destruct (add_all_ok xs l) as (? & -> & ? & ?); [assumption|cbn [bind]]
    end end.
  eexists. split; [reflexivity|].
  exists (if flag Freestanding c then [bs "-ffreestanding"] else []), (if flag Quiet c then [bs "-w"] else []),
    (if flag Freestanding c then [] else bs "-lm" :: if async then [bs "-lpthread"] else []),
    (fst (std_args exe there) ++ if flag Freestanding c then [] else snd (std_args exe there)).
  splits.
  - repeat match goal with H : args ?x = _ |- _ => rewrite H; clear H end. cbn [args arg_list_init].
    rewrite <- !app_assoc. reflexivity.
  - intros I. apply flag_spec in I. rewrite I. auto.
  - intros I. destruct (flag Freestanding c) eqn:E; [apply flag_spec in E; contradiction|auto].
  - intros I. apply flag_spec in I. now rewrite I.
  - intros I. destruct (flag Quiet c) eqn:E; [apply flag_spec in E; contradiction|auto].
  - apply Forall_app. unfold std_args. destruct (there (exe ++ bs "/std")); [|destruct (there (exe ++ bs "/../share/zenc/std"))]; cbn [fst snd];
      (split; [repeat constructor; eexists; reflexivity|destruct (flag Freestanding c); repeat constructor; eexists; reflexivity]).
Qed.
Example C100_compile_partial_ex : exists l, compile_args (turn [Quiet] init) (bs "-O2") (bs "-lfoo -lbar") true (bs "/bin/zc") (fun _ => false) (bs "a") (bs "a.c") [bs "x.o"] = Ok l /\
  args l = map bs ["gcc"; "-O2"; "-w"; "-o"; "a"; "a.c"; "x.o"; "-lm"; "-lpthread"; "-lfoo"; "-lbar"; "-I."; "-I./std/third-party/tre/include"]%string /\ cmdline_ok (bs "gcc", None).
Proof.
  eexists. split; [vm_compute; reflexivity|]. split; [reflexivity|]. unfold cmdline_ok. repeat apply conj; try discriminate; try (cbn; lia); try exact I;
      try (unfold clean, white; cbn; repeat constructor; try discriminate; cbn; intuition discriminate);
      try (unfold has_blank; cbn; intuition discriminate).
Qed.
(** False of an installed compiler: on Linux the place of the library is looked for below the
    executable file itself, where nothing can be, so that it is searched in the working directory. *)
Theorem C100_library_refuted : forall exe there,
  (forall r, there (exe ++ bs "/" ++ r) = false) -> std_args exe there = ([bs "-I."], [bs "-I./std/third-party/tre/include"]).
Proof.
  intros exe there H. unfold std_args. change (bs "/std") with (bs "/" ++ bs "std"). rewrite H.
  change (bs "/../share/zenc/std") with (bs "/" ++ bs "../share/zenc/std"). rewrite H. reflexivity.
Qed.
Example C100_library_refuted_ex : let there := fun p => beq_bytes p (bs "/usr/bin/zc") || beq_bytes p (bs "/usr/share/zenc/std") in
  (forall r, there (bs "/usr/bin/zc" ++ bs "/" ++ r) = false) /\ there (bs "/usr/bin/zc") = true.
Proof. cbv zeta. split; [intros r; reflexivity|reflexivity]. Qed.
(** False of a compiler whose path has a blank or 64 bytes: it is taken apart, or cut. *)
Theorem C100_compiler_refuted :
  (forall a b, flag_ok a -> flag_ok b -> ~ has_blank a -> ~ has_blank b -> arg_list_add_from_string (a ++ 32%N :: b) = Ok [a; b]) /\
  (forall n c, 63 < length n -> n <> bs "zig" -> exists c', parse [bs "--cc"; n] c = Ok (inr c') /\ cc c' = firstn 63 n).
Proof.
  split.
  - intros a b (A1 & A2 & A3) (B1 & B2 & B3) NA NB.
    assert (OK : forall x, x <> [] -> clean x -> length x <= 4095 -> ~ has_blank x -> cmdline_ok (x, None)).
    { intros x X1 X2 X3 X4. unfold cmdline_ok. rewrite app_nil_r. splits; auto. }
    pose proof (tok_of_ok _ (OK a A1 A2 A3 NA)) as Ta. pose proof (tok_of_ok _ (OK b B1 B2 B3 NB)) as Tb.
    pose proof (split_joined [tok_of (a, None); tok_of (b, None)] (Forall_cons _ Ta (Forall_cons _ Tb (Forall_nil _)))) as S0.
    cbn [joined seps flat_map map] in S0. unfold tok, tok_of in S0. cbn [fst snd] in S0. unfold enc in S0. cbn [has_space existsb] in S0.
    rewrite !app_nil_r in S0. exact S0.
  - intros n c L NZ. exists (set_cc n c). split; [|reflexivity].
    change (parse [bs "--cc"; n] c) with (Ok (inr (set_cc (if beq_bytes n (bs "zig") then bs "zig cc" else n) c)) : res (Z + config)).
    destruct (beq_bytes n (bs "zig")) eqn:E; [apply beq_bytes_true in E; contradiction|]. reflexivity.
Qed.
Example C100_compiler_refuted_ex : 63 < length (repeat 120%N 64) /\ repeat 120%N 64 <> bs "zig".
Proof. split; [rewrite repeat_length; lia|discriminate]. Qed.

(** The files that go to the C compiler are those with one of eight endings. *)
Theorem C100_linked : forall p,
  backend p = true <->
  exists stem e, p = stem ++ bs "." ++ e /\ In e (map bs ["c"; "cpp"; "m"; "mm"; "o"; "a"; "dylib"; "so"]%string).
Proof.
  assert (L : forall e, ~ In 46%N e -> last_dot e = None).
  { induction e as [|x e IH]; intros H; auto. cbn [last_dot]. rewrite IH by (intros X; apply H; now right).
    destruct (N.eqb_spec x 46); auto. subst. exfalso. apply H. now left. }
  assert (L2 : forall stem e, ~ In 46%N e -> last_dot (stem ++ 46%N :: e) = Some (46%N :: e)).
  { induction stem as [|x stem IH]; intros e H; cbn [app last_dot].
    - now rewrite L.
    - now rewrite IH. }
  assert (L3 : forall p t, last_dot p = Some t -> exists stem, p = stem ++ t).
  { induction p as [|x p IH]; intros t E; [discriminate|]. cbn [last_dot] in E. destruct (last_dot p) as [t'|] eqn:E'.
    - injection E as <-. destruct (IH _ eq_refl) as [st ->]. now exists (x :: st).
    - destruct (x =? 46)%N; [|discriminate]. injection E as <-. now exists []. }
  intros p. unfold backend. split.
  - destruct (last_dot p) as [t|] eqn:E; [|discriminate]. destruct (L3 _ _ E) as [stem ->]. intros H.
    apply existsb_exists in H. destruct H as (e & H & Q). apply beq_bytes_true in Q. subst e. exists stem.
    unfold backend_exts in H. cbn [map] in H. cbn [In] in H.
    destruct H as [<-|[<-|[<-|[<-|[<-|[<-|[<-|[<-|[]]]]]]]]]; eexists; (split; [reflexivity|]); cbn [map In]; tauto.
  - intros (stem & e & -> & H). change (bs "." ++ e) with (46%N :: e). rewrite L2.
    + apply existsb_exists. exists (46%N :: e). rewrite beq_bytes_refl. split; auto.
      unfold backend_exts. cbn [map In] in *. destruct H as [<-|[<-|[<-|[<-|[<-|[<-|[<-|[<-|[]]]]]]]]]; cbn; tauto.
    + cbn [map In] in H. destruct H as [<-|[<-|[<-|[<-|[<-|[<-|[<-|[<-|[]]]]]]]]]; vm_compute; intuition discriminate.
Qed.
Print Assumptions C100_linked.
Example C100_linked_ex : backend (bs "lib/util.c") = true /\ backend (bs "main.zc") = false.
Proof. split; reflexivity. Qed.

(** Files: every source is parsed once, in the order given; the others go to the C compiler. *)
Theorem C100_files : forall real imports first fs,
  let '(cs, ps) := all_files real imports first fs in
  (length (filter (fun f => backend (real f)) fs) <= 64 -> cs = map real (filter (fun f => backend (real f)) fs)) /\
  NoDup ps /\ ~ In (real first) ps /\
  (exists sub, ps = map real sub /\ subseq sub fs) /\
  (forall f, In f fs -> backend (real f) = false ->
     In (real f) ps \/ real f = real first \/ exists p, (p = first \/ In p ps) /\ In (real f) (imports p)).
Proof.
  intros real imports first fs.
  assert (G : forall fs marked cs ps,
    NoDup ps -> (forall p, In p ps -> In p marked) -> True ->
    let '(cs', ps') := further real imports fs marked cs ps in
    (length cs + length (filter (fun f => backend (real f)) fs) <= 64 -> cs' = cs ++ map real (filter (fun f => backend (real f)) fs)) /\
    NoDup ps' /\ (forall p, In p ps' -> In p ps \/ ~ In p marked) /\
    (exists sub, ps' = ps ++ map real sub /\ subseq sub fs) /\
    (forall f, In f fs -> backend (real f) = false -> In (real f) ps' \/ In (real f) marked \/ exists p, In p ps' /\ In (real f) (imports p))).
  { induction fs0 as [|f fs0 IH]; intros marked cs ps ND Sub _; cbn [further].
    - splits; auto.
      + intros _. cbn. now rewrite app_nil_r.
      + exists []. cbn [map]. rewrite app_nil_r. split; auto. constructor.
      + intros f [].
    - destruct (backend (real f)) eqn:B.
      + specialize (IH marked (push cs (real f)) ps ND Sub Logic.I). destruct (further real imports fs0 marked (push cs (real f)) ps) as (cs', ps').
        destruct IH as (I1 & I2 & I3 & (sub & I4 & I6) & I7). cbn [filter]. rewrite B. splits; auto.
        * cbn [length map]. intros L. unfold push in I1. destruct (Nat.ltb_spec (length cs) 64); [|lia].
          rewrite I1 by (rewrite app_length; cbn; lia). now rewrite <- app_assoc.
        * exists sub. split; auto. now constructor.
        * intros g [<-|Ig]; auto. congruence.
      + destruct (existsb (beq_bytes (real f)) marked) eqn:M.
        * specialize (IH marked cs ps ND Sub Logic.I). destruct (further real imports fs0 marked cs ps) as (cs', ps').
          destruct IH as (I1 & I2 & I3 & (sub & I4 & I6) & I7). cbn [filter]. rewrite B. splits; auto.
          -- exists sub. split; auto. now constructor.
          -- intros g [<-|Ig] Bg; auto. right. left. apply existsb_exists in M as (x & Ix & Ex). apply beq_bytes_true in Ex. now subst.
        * assert (NM : ~ In (real f) marked).
          { intros I. assert (existsb (beq_bytes (real f)) marked = true); [|congruence]. apply existsb_exists. exists (real f). split; auto. apply beq_bytes_refl. }
          specialize (IH (imports (real f) ++ real f :: marked) cs (ps ++ [real f])).
          destruct (further real imports fs0 (imports (real f) ++ real f :: marked) cs (ps ++ [real f])) as (cs', ps').
          destruct IH as (I1 & I2 & I3 & (sub & I4 & I6) & I7).
          { apply NoDup_rev in ND. rewrite <- (rev_involutive (ps ++ [real f])). apply NoDup_rev. rewrite rev_app_distr. cbn. constructor; auto.
            intros I. apply in_rev in I. apply NM. auto. }
          { intros p I. apply in_app_or in I as [I|[<-|[]]]; apply in_or_app; right; [right; auto|now left]. }
          { exact Logic.I. }
          cbn [filter]. rewrite B. splits; auto.
          -- intros p I. destruct (I3 p I) as [J|J].
             ++ apply in_app_or in J as [J|[<-|[]]]; auto.
             ++ right. intros K. apply J. apply in_or_app. right. now right.
          -- exists (f :: sub). rewrite I4, <- app_assoc. split; auto. now constructor.
          -- intros g [<-|Ig] Bg.
             ++ left. rewrite I4. apply in_or_app. left. apply in_or_app. right. now left.
             ++ destruct (I7 g Ig Bg) as [J|[J|J]]; auto. apply in_app_or in J as [J|[J|J]]; auto.
                ** right. right. exists (real f). split; auto. rewrite I4. apply in_or_app. left. apply in_or_app. right. now left.
                ** left. rewrite <- J, I4. apply in_or_app. left. apply in_or_app. right. now left. }
  unfold all_files. destruct fs as [|f0 fs].
  { splits; auto using NoDup_nil.
    exists []. split; auto. constructor. }
  specialize (G (f0 :: fs) (real first :: imports first) [] [] (NoDup_nil _)).
  destruct (further real imports (f0 :: fs) (real first :: imports first) [] []) as (cs, ps).
  destruct G as (I1 & I2 & I3 & I4 & I7); [intros p []|exact Logic.I|]. splits; auto.
  - intros I. destruct (I3 _ I) as [[]|J]. apply J. now left.
  - intros f If Bf. destruct (I7 f If Bf) as [J|[[J|J]|(p & Jp & J)]]; auto.
    + right. right. exists first. auto.
    + right. right. exists p. auto.
Qed.
Example C100_files_ex : all_files (fun f => f) (fun f => if beq_bytes f (bs "b.zc") then [bs "c.zc"] else []) (bs "a.zc") (map bs ["b.zc"; "x.o"; "c.zc"; "b.zc"; "a.zc"; "d.zc"]%string) =
  ([bs "x.o"], [bs "b.zc"; bs "d.zc"]).
Proof. vm_compute. reflexivity. Qed.
Print Assumptions C100_options_partial.
Print Assumptions C100_no_command.
Print Assumptions C100_dot_refuted.
Print Assumptions C100_command_refuted.
Print Assumptions C100_level_refuted.
Print Assumptions C100_missing_refuted.
Print Assumptions C100_two_words_refuted.
Print Assumptions C100_compile_partial.
Print Assumptions C100_library_refuted.
Print Assumptions C100_compiler_refuted.
Print Assumptions C100_files.
