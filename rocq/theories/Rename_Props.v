(** C94: finding and renaming symbols in the editor. *)
From Verif Require Import Common Rename_Model Rename_Spec Rename_Proofs.
Local Open Scope Z_scope.

(** Opening or changing a file replaces what is known of it and nothing else; a file is in the
    project once, after every history. *)
Theorem C94_update : forall p uri root p', update p uri root = Ok p' ->
  (forall v, get_file p' v = if beq_bytes uri v then Some (walk root) else get_file p v) /\
  (NoDup (map fst p) -> NoDup (map fst p')).
Proof.
  intros p uri root p' H. unfold update in H. destruct (hovers_fit root); [|discriminate]. destruct (get_file p uri) eqn:G; injection H as <-.
  - split; [|now rewrite set_keys]. intros v. rewrite get_set, G. reflexivity.
  - split; [reflexivity|]. intros N. cbn [map fst]. constructor; auto. apply get_none. exact G.
Qed.
Print Assumptions C94_update.
(** False: a name of 256 bytes can be indexed (the server overflows a buffer). *)
Theorem C94_hover_refuted : forall p uri k nm t d h u kids, (k = KFunction \/ k = KVarDecl \/ k = KConst \/ k = KStruct) -> (256 <= length nm)%nat ->
  update p uri (T KWalked [] (Tok 0 0 0) (Tok 0 0 0) [] [] [T k nm t d h u kids]) = UB.
Proof.
  intros p uri k nm t d h u kids K L. unfold update. cbn [hovers_fit forallb].
  assert (E : (length nm + length h + 1 <=? 256)%nat = false) by (apply Nat.leb_gt; lia). destruct K as [->|[->|[->| ->]]]; rewrite E; reflexivity.
Qed.
Print Assumptions C94_hover_refuted.

(** The references found by name are exactly the names in the indexes; and every name of a text is
    in its index, with its place, when it stands in a construct the walk enters. *)
Theorem C94_references : forall p n u r, In (u, r) (find_references p n) <-> exists idx, In (u, idx) p /\ In r idx /\ r_name r = Some n.
Proof. exact references_spec. Qed.
Print Assumptions C94_references.
Theorem C94_index_partial : forall root nm,
  (forall r, In r (walk root) -> r_name r = Some nm -> exists t, In (nm, t) (occurrences root) /\ at_tok r t) /\
  (entered root = true -> forall t, In (nm, t) (occurrences root) -> exists r, In r (walk root) /\ r_name r = Some nm /\ at_tok r t).
Proof. intros root nm. split; [intros r A B; exact (walk_sound root r nm A B)|intros E t H; exact (walk_complete root nm t E H)]. Qed.
Print Assumptions C94_index_partial.
(** False otherwise: what stands below a construct the walk does not enter (a method of an impl, an
    operand of a unary operator, ...) does not count. *)
Theorem C94_methods_refuted : forall p uri nm t d h u a b n2 t2 d2 h2 u2 kids,
  update p uri (T KWalked nm t d h u (a ++ T KOpaque n2 t2 d2 h2 u2 kids :: b)) = update p uri (T KWalked nm t d h u (a ++ T KOpaque n2 t2 d2 h2 u2 [] :: b)).
Proof.
  intros. unfold update. cbn [hovers_fit walk]. rewrite !forallb_app, !flat_map_app. reflexivity.
Qed.
Print Assumptions C94_methods_refuted.

(** Renaming, when no two files differ in case alone: in each file, the edits are those of all
    ranges with the name, with their places and the new name, and other files get none. *)
Theorem C94_rename_partial : forall p uri idx line col n new, distinct_uris p -> get_file p uri = Some idx -> symbol_at idx line col = Some n ->
  exists changes, rename p uri line col new = Some changes /\
    forall v, edits_for changes v = match get_file p v with Some i => map (edit_of new) (filter (named n) i) | None => [] end.
Proof.
  intros p uri idx line col n new D G S. pose proof (distinct_nodup p D) as ND. exists (fold_left (put new) (find_references p n) []).
  split; [apply (rename_refs p uri idx); auto|]. intros v.
  rewrite (fold_edits new (map fst p)); [|apply distinct_inj; auto| |intros k []|constructor].
  - cbn [edits_for flat_map app]. rewrite <- (map_map snd (edit_of new)), references_of by auto. destruct (get_file p v); reflexivity.
  - intros u r X. apply references_spec in X as (i & A & _). apply (in_map fst) in A. exact A.
Qed.
Print Assumptions C94_rename_partial.
(** Hence false: only the symbol is renamed.  Whatever has the same name, in any file and whatever
    its definition is, is renamed with it. *)
Theorem C94_scope_refuted : forall p uri idx line col n new v other r, distinct_uris p -> get_file p uri = Some idx -> symbol_at idx line col = Some n ->
  get_file p v = Some other -> In r other -> r_name r = Some n ->
  exists changes, rename p uri line col new = Some changes /\ In (edit_of new r) (edits_for changes v).
Proof.
  intros p uri idx line col n new v other r D G S V H N. destruct (C94_rename_partial p uri idx line col n new D G S) as (ch & E & F).
  exists ch. split; auto. rewrite F, V. apply in_map, filter_In. rewrite named_spec. auto.
Qed.
Print Assumptions C94_scope_refuted.
(** And false for two files whose addresses differ in case alone: the edits of the second are made
    in the first. *)
Theorem C94_case_refuted : forall u1 u2 i1 i2 line col n new r1, u1 <> u2 -> same_but_case u1 u2 ->
  symbol_at i1 line col = Some n -> In r1 i1 -> r_name r1 = Some n ->
  exists changes, rename [(u1, i1); (u2, i2)] u1 line col new = Some changes /\ edits_for changes u2 = [] /\
    edits_for changes u1 = map (edit_of new) (filter (named n) i1) ++ map (edit_of new) (filter (named n) i2).
Proof.
  intros u1 u2 i1 i2 line col n new r1 N E S H1 N1. apply lower_case in E.
  assert (ND : NoDup (map fst [(u1, i1); (u2, i2)])) by (cbn; repeat constructor; cbn; intuition congruence).
  assert (G : get_file [(u1, i1); (u2, i2)] u1 = Some i1) by (cbn; now rewrite beq_bytes_refl).
  exists (fold_left (put new) (find_references [(u1, i1); (u2, i2)] n) []). split; [apply (rename_refs _ u1 i1); auto|].
  assert (F : forall es u l, map lower u = map lower u1 -> fold_left (put new) (map (pair u) l) [(u1, es)] = [(u1, es ++ map (edit_of new) l)]).
  { intros es u l Eu. revert es. induction l as [|r l IH]; intros es; cbn [map fold_left]; [now rewrite app_nil_r|]. cbn [put add_edit].
    rewrite (proj2 (nocase_spec u u1) Eu), IH, <- app_assoc. reflexivity. }
  cbn [find_references flat_map]. rewrite app_nil_r, fold_left_app.
  destruct (filter (named n) i1) as [|x l] eqn:FI.
  { exfalso. assert (X : In r1 (filter (named n) i1)) by (apply filter_In; rewrite named_spec; auto). rewrite FI in X. destruct X. }
  cbn [map fold_left]. change (put new [] (u1, x)) with [(u1, [edit_of new x])]. rewrite F by reflexivity. rewrite F by auto.
  split; cbn [edits_for flat_map].
  - destruct (beq_bytes u1 u2) eqn:B; [apply beq_bytes_true in B; contradiction|reflexivity].
  - rewrite beq_bytes_refl, app_nil_r. cbn [app]. reflexivity.
Qed.
Print Assumptions C94_case_refuted.

(** Go to definition from any column of a use, when the definition is in the same file: its place. *)
Theorem C94_goto_partial : forall p uri root nm t d col,
  get_file p uri = Some (walk root) -> entered root = true -> separate (walk root) ->
  In (nm, t, d) (uses root) -> In d (defs root) -> 1 <= t_line d -> 0 <= t_len d ->
  t_col t - 1 <= col <= t_col t - 1 + t_len t ->
  goto p uri (t_line t - 1) col = Some (uri, t_line d - 1, t_col d - 1, t_col d - 1).
Proof.
  intros p uri root nm t d col G E S U D L Ld C.
  destruct (uses_walk_n (size root) root (le_n _) E nm t d U) as (r & R1 & R2 & (R3 & R4 & R5) & R6 & R7).
  destruct (defs_walk_n (size root) root (le_n _) E d D L) as (x & X1 & X2 & X3 & X4 & X5).
  unfold goto. rewrite G. rewrite (find_at_in (walk root) r); auto.
  - rewrite R2, R6, R7. rewrite (find_at_in (walk root) x); auto; [now rewrite X2|].
    unfold contains. rewrite X3, X4, X5, Z.eqb_refl. destruct (Z.leb_spec (t_col d - 1) (t_col d - 1)); [|lia].
    destruct (Z.leb_spec (t_col d - 1) (t_col d - 1 + t_len d)); [reflexivity|lia].
  - unfold contains. rewrite R3, R4, R5, Z.eqb_refl. destruct (Z.leb_spec (t_col t - 1) col); [|lia].
    destruct (Z.leb_spec col (t_col t - 1 + t_len t)); [reflexivity|lia].
Qed.
Print Assumptions C94_goto_partial.
(** From a definition: to itself. *)
Theorem C94_goto_itself : forall p uri idx line col r, get_file p uri = Some idx -> separate idx -> In r idx -> r_def r = true -> contains line col r = true ->
  goto p uri line col = Some (uri, r_line r, r_col r, r_end r).
Proof. intros p uri idx line col r G S H D C. unfold goto. rewrite G, (find_at_in idx r) by auto. now rewrite D. Qed.
Print Assumptions C94_goto_itself.
(** When no definition is at that place of this file, a definition with the name is looked for in all
    files, and found if there is one. *)
Theorem C94_goto_other_partial : forall p uri idx line col r n, get_file p uri = Some idx -> separate idx -> In r idx -> r_def r = false -> contains line col r = true ->
  r_name r = Some n -> (r_kind r = KVar \/ r_kind r = KCall true) ->
  (forall x, In x idx -> contains (r_dline r) (r_dcol r) x = true -> r_def x = false) ->
  (exists v i d, In (v, i) p /\ In d i /\ r_name d = Some n /\ r_def d = true /\ In (r_kind d) [KFunction; KVarDecl; KConst; KStruct]) ->
  exists v i d, goto p uri line col = Some (v, r_line d, r_col d, r_end d) /\
    In (v, i) p /\ In d i /\ r_name d = Some n /\ r_def d = true /\ In (r_kind d) [KFunction; KVarDecl; KConst; KStruct].
Proof.
  intros p uri idx line col r n G S H D C Nm K No Ex. unfold goto. rewrite G, (find_at_in idx r) by auto. rewrite D.
  assert (F : match find_at idx (r_dline r) (r_dcol r) with Some d => r_def d | None => false end = false).
  { unfold find_at. destruct (List.find _ (rev idx)) as [x|] eqn:E; [|reflexivity]. apply List.find_some in E as [E1 E2]. apply (No x); [now apply in_rev|exact E2]. }
  rewrite F.
  assert (Q : exists v i d, find_definition p n = Some (v, d) /\ In (v, i) p /\ In d i /\ r_name d = Some n /\ r_def d = true /\ In (r_kind d) [KFunction; KVarDecl; KConst; KStruct]).
  { clear -Ex. induction p as [|[v i] p IH]; [destruct Ex as (? & ? & ? & [] & _)|]. cbn [find_definition].
    destruct (List.find (fun r => is_definition r && named n r) i) as [d|] eqn:E.
    - apply List.find_some in E as [E1 E2]. apply andb_prop in E2 as [E2 E3]. exists v, i, d. split; [reflexivity|]. split; [now left|]. split; auto. split; [now apply named_spec|].
      unfold is_definition in E2. apply andb_prop in E2 as [E2 E4]. split; auto. destruct (r_kind d); try discriminate; cbn; tauto.
    - destruct IH as (v' & i' & d' & A & B & X).
      + destruct Ex as (v' & i' & d' & [Y|Y] & A & B & C & K); [|eauto 10]. exfalso. injection Y as <- <-. apply (List.find_none _ _ E) in A.
        apply named_spec in B. rewrite B, andb_true_r in A. unfold is_definition in A. rewrite C in A. destruct (r_kind d'); cbn in K, A; try discriminate; intuition discriminate.
      + exists v', i', d'. split; auto. split; [now right|exact X]. }
  destruct Q as (v & i & d & E & X). exists v, i, d. split; [|exact X]. rewrite Nm, E. destruct K as [->| ->]; reflexivity.
Qed.
Print Assumptions C94_goto_other_partial.
(** False when the definition is in another file: positions do not say in which file they are, so any
    definition that happens to be at that line and column of this file is taken for it. *)
Theorem C94_goto_refuted : forall p uri idx line col r x, get_file p uri = Some idx -> find_at idx line col = Some r -> r_def r = false ->
  r_duri r <> uri -> find_at idx (r_dline r) (r_dcol r) = Some x -> r_def x = true ->
  exists l c e, goto p uri line col = Some (uri, l, c, e).
Proof. intros p uri idx line col r x G F D N X Y. unfold goto. rewrite G, F, D, X, Y. eauto. Qed.
Print Assumptions C94_goto_refuted.

(** The hypotheses are met: a.zc uses helper of b.zc, declared at 1:4 there, where a.zc has main;
    both files have a variable n. *)
Definition fn_ (nm : bytes) (l c : Z) (kids : list tree) := T KFunction nm (Tok l c (Z.of_nat (length nm))) (Tok 0 0 0) (bs "fn (...) -> void") [] kids.
Definition let_ (nm : bytes) (l c : Z) := T KVarDecl nm (Tok l c (Z.of_nat (length nm))) (Tok 0 0 0) (bs "var ") [] [].
Definition use_ (nm : bytes) (l c dl dc : Z) (u : bytes) := T KVar nm (Tok l c (Z.of_nat (length nm))) (Tok dl dc (Z.of_nat (length nm))) [] u [].
Definition call_ (nm : bytes) (l c dl dc : Z) (u : bytes) (args : list tree) := T (KCall true) nm (Tok l c (Z.of_nat (length nm))) (Tok dl dc (Z.of_nat (length nm))) [] u args.
Definition file_ (kids : list tree) := T KWalked [] (Tok 0 0 0) (Tok 0 0 0) [] [] kids.
Definition a_zc := file_ [fn_ (bs "main") 1 4 [let_ (bs "n") 2 9; call_ (bs "helper") 3 5 1 4 (bs "b.zc") [use_ (bs "n") 3 12 2 9 (bs "a.zc")]]].
Definition b_zc := file_ [fn_ (bs "helper") 1 4 [let_ (bs "n") 2 9]].
Example C94_case :
  exists p, (do p <- update [] (bs "b.zc") b_zc; update p (bs "a.zc") a_zc) = Ok p /\ distinct_uris p /\
  entered a_zc = true /\ get_file p (bs "a.zc") = Some (walk a_zc) /\
  goto p (bs "a.zc") 2 11 = Some (bs "a.zc", 1, 8, 8) /\
  goto p (bs "a.zc") 2 4 = Some (bs "a.zc", 0, 3, 3) /\       (* helper: taken to main *)
  rename p (bs "a.zc") 1 8 (bs "count") = Some [(bs "a.zc", [(1, 8, 9, bs "count"); (2, 11, 12, bs "count")]); (bs "b.zc", [(1, 8, 9, bs "count")])].
Proof.
  eexists. split; [vm_compute; reflexivity|]. split; [|split; [reflexivity|]].
  - unfold distinct_uris. constructor; [|constructor; constructor]. constructor; [|constructor]. intros X. apply lower_case in X. discriminate.
  - split; [vm_compute; reflexivity|]. split; [vm_compute; reflexivity|]. split; vm_compute; reflexivity.
Qed.
Example C94_separate : separate (walk a_zc).
Proof.
  intros line col r1 r2 H1 H2. vm_compute in H1, H2.
  repeat (destruct H1 as [<-|H1]); try contradiction; repeat (destruct H2 as [<-|H2]); try contradiction; try reflexivity;
    unfold contains; cbn [r_line r_col r_end]; intros A B; exfalso;
    apply andb_prop in A as [A A3]; apply andb_prop in A as [A1 A2]; apply andb_prop in B as [B B3]; apply andb_prop in B as [B1 B2];
    apply Z.eqb_eq in A1, B1; apply Z.leb_le in A2, A3, B2, B3; lia.
Qed.
