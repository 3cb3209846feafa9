(** C82: imports read each file once. *)
From Verif Require Import Common Import_Model Import_Spec Import_Proofs.
Local Open Scope nat_scope.

(** For every project, with any cycles of imports, reading it ends. *)
Theorem C82_terminates : forall access real content search_dirs main universe items fuel,
  (forall f, content f <> None -> In f universe) -> length universe < fuel ->
  program access real content search_dirs main fuel items <> Fuel.
Proof.
  intros access real content dirs main universe items fuel U L. unfold program. apply load_fuel with universe; auto; [discriminate|].
  unfold left. enough (E : forall p, length (filter p universe) <= length universe) by (specialize (E (fun f => negb (is_imported f {| imported := []; modules := []; selective := [] |}))); lia).
  clear. intros p. induction universe as [|x l IH]; [auto|]. cbn [filter length]. destruct (p x); cbn [length]; lia.
Qed.

(** PARTIAL: the program consists of the definitions of the file on the command line and of each file
    that it imports, directly or not: each file's once and in order, with the same
    attributes from the second definition of the file on; nothing else is in it. *)
Theorem C82_once_partial : forall access real content search_dirs main items fuel out s,
  program access real content search_dirs main fuel items = Ok (out, s) ->
  of_file None out = declared None None items
  /\ forall f, (reach access real content search_dirs main items f ->
                exists its pre, content f = Some its /\ alike (of_file (Some f) out) (declared (Some f) pre its))
            /\ (~ reach access real content search_dirs main items f -> of_file (Some f) out = []).
Proof.
  intros access real content dirs main items fuel out s E. unfold program in E.
  apply load_adds in E; [|discriminate]. destruct E as (new & A1 & A2 & A3 & A4 & A5 & A6 & A7 & A8 & A9).
  cbn [imported] in A1. rewrite app_nil_r in A1. split; [exact A4|]. intros f.
  assert (R : reach access real content dirs main items f -> In f new).
  { intros R. induction R as [i I|f its i R IH C I].
    - rewrite <- A1. apply (A8 i I).
    - destruct (A5 f IH) as (its' & p & C' & _ & K). rewrite C in C'. injection C' as <-. rewrite <- A1. apply K, I. }
  split.
  - intros H. destruct (A5 f (R H)) as (its & p & C & K & _). eauto.
  - intros H. apply A6; [|discriminate]. intros I. apply H, A9, I.
Qed.

(** A file that cannot be found is an error. *)
Theorem C82_missing : forall access real content search_dirs main items fuel out s f,
  reach access real content search_dirs main items f -> content f = None ->
  program access real content search_dirs main fuel items <> Ok (out, s).
Proof.
  intros access real content dirs main items fuel out s f R C E.
  destruct (C82_once_partial _ _ _ _ _ _ _ _ _ E) as [_ H]. destruct (proj1 (H f) R) as (its & p & X & _). congruence.
Qed.

(** REFUTED: the file on the command line is not marked as read: if it is imported, all its
    definitions are in the program twice. *)
Theorem C82_main_refuted : forall access real content search_dirs main items fuel out s f,
  program access real content search_dirs main fuel items = Ok (out, s) ->
  reach access real content search_dirs main items f -> content f = Some items ->
  of_file None out = declared None None items
  /\ exists pre, alike (of_file (Some f) out) (declared (Some f) pre items).
Proof.
  intros access real content dirs main items fuel out s f E R C.
  destruct (C82_once_partial _ _ _ _ _ _ _ _ _ E) as [A H]. split; [exact A|].
  destruct (proj1 (H f) R) as (its & p & X & K). rewrite C in X. inversion X; subst. eauto.
Qed.

(** REFUTED: the first definition that an import gives has the attributes of the import, not its own. *)
Theorem C82_attributes_refuted : forall access real content search_dirs main fuel who pre t i s n out s',
  it t = Imp i -> load access real content search_dirs main fuel who pre [t] s = Ok (n :: out, s') ->
  ncfg n = cfg t /\ nattrs n = attrs t.
Proof.
  intros access real content dirs main fuel who pre t i s n out s' T E. destruct fuel; [discriminate|].
  rewrite load_unfold, load_items_cons, T in E.
  destruct (import _ _ _ _ _ _ _ _ _) as [[[|h l] s1]| | |]; cbn [bind] in E; try discriminate.
  cbn in E. inversion E; subst. split; reflexivity.
Qed.

(** REFUTED: an alias or a list of names for a file that was read before is dropped without a word. *)
Theorem C82_alias_refuted : forall access real content search_dirs main fuel who pre t i s,
  it t = Imp i -> In (resolve access real search_dirs (current main who) (path i)) (imported s) ->
  (forall l, sel i = Some l -> length l <= 32) ->
  load access real content search_dirs main (S fuel) who pre [t] s = Ok ([], s).
Proof.
  intros access real content dirs main fuel who pre t i s T I L. rewrite load_unfold, load_items_cons, T. unfold import.
  assert (E : (match sel i with Some l => 32 <? length l | None => false end) = false).
  { destruct (sel i) as [l|]; [|reflexivity]. apply Nat.ltb_ge, L. reflexivity. }
  rewrite E. cbv zeta. rewrite (proj2 (is_imported_spec _ _) I). reflexivity.
Qed.
(** REFUTED: more than 32 names overrun an array. *)
Theorem C82_many_refuted : forall access real content search_dirs main fuel who pre t i l rest s,
  it t = Imp i -> sel i = Some l -> 32 < length l ->
  load access real content search_dirs main (S fuel) who pre (t :: rest) s = UB.
Proof.
  intros access real content dirs main fuel who pre t i l rest s T S L. rewrite load_unfold, load_items_cons, T. unfold import.
  rewrite S. now rewrite (proj2 (Nat.ltb_lt _ _) L).
Qed.
(** REFUTED: modules are known by the name of their file without its directory. *)
Lemma split_last_none c l : ~ In c l -> split_last c l = None.
Proof.
  induction l as [|x l IH]; intros H; [reflexivity|]. cbn [split_last]. rewrite IH by (intros I; apply H; now right).
  destruct (N.eqb_spec x c); [subst; exfalso; apply H; now left|reflexivity].
Qed.
Lemma split_last_app c a b : ~ In c b -> split_last c (a ++ c :: b) = Some (a, b).
Proof.
  intros H. induction a as [|x a IH]; cbn [app split_last]; [|now rewrite IH].
  rewrite split_last_none by auto. now rewrite N.eqb_refl.
Qed.
Theorem C82_modules_refuted : forall d1 d2 n, ~ In (ch "/") n ->
  module_name (d1 ++ bs "/" ++ n) = module_name (d2 ++ bs "/" ++ n).
Proof.
  intros d1 d2 n H. unfold module_name, after_last. cbv zeta. change (bs "/" ++ n) with (ch "/" :: n).
  now rewrite !split_last_app.
Qed.

(** A project with a cycle: main.zc imports a.zc, which imports b.zc by its directory, which imports
    a.zc again and main.zc. *)
Definition d (c : option bytes) (a : nat) (n : bytes) : item := {| cfg := c; attrs := a; it := Def n |}.
Definition imp_ (p : bytes) : item := {| cfg := None; attrs := 0; it := Imp {| sel := None; alias := None; path := p |} |}.
Definition m_items := [imp_ (bs "a.zc"); d None 0 (bs "main")].
Definition a_items := [d (Some (bs "LINUX")) 7 (bs "f"); imp_ (bs "./sub/b.zc"); d None 3 (bs "g")].
Definition b_items := [imp_ (bs "../a.zc"); imp_ (bs "/p/main.zc"); d (Some (bs "X")) 2 (bs "h")].
Definition ex_real (p : bytes) : bytes :=
  if beq_bytes p (bs "/p/./sub/b.zc") then bs "/p/sub/b.zc" else if beq_bytes p (bs "/p/sub/../a.zc") then bs "/p/a.zc" else p.
Definition ex_content (p : bytes) : option (list item) :=
  if beq_bytes p (bs "/p/main.zc") then Some m_items else if beq_bytes p (bs "/p/a.zc") then Some a_items
  else if beq_bytes p (bs "/p/sub/b.zc") then Some b_items else None.
Definition ex_access (p : bytes) : bool := match ex_content (ex_real p) with Some _ => true | None => false end.
Definition summary (out : list node) := map (fun n => (nfile n, nname n, ncfg n, nattrs n)) out.
Example C82_case :
  (do '(out, _) <- program ex_access ex_real ex_content [] (bs "/p/main.zc") 4 m_items; Ok (summary out))
  = Ok [(Some (bs "/p/a.zc"), bs "f", None, 0); (Some (bs "/p/main.zc"), bs "main", None, 0);
        (Some (bs "/p/sub/b.zc"), bs "h", Some (bs "X"), 2); (Some (bs "/p/a.zc"), bs "g", None, 3); (None, bs "main", None, 0)].
Proof. vm_compute. reflexivity. Qed.
Example C82_case_reach : reach ex_access ex_real ex_content [] (bs "/p/main.zc") m_items (bs "/p/main.zc")
  /\ ex_content (bs "/p/main.zc") = Some m_items.
Proof.
  split; [|reflexivity].
  assert (A : reach ex_access ex_real ex_content [] (bs "/p/main.zc") m_items (bs "/p/a.zc")).
  { apply (reach_import ex_access ex_real ex_content [] (bs "/p/main.zc") m_items {| sel := None; alias := None; path := bs "a.zc" |}). now left. }
  assert (B : reach ex_access ex_real ex_content [] (bs "/p/main.zc") m_items (bs "/p/sub/b.zc")).
  { apply (reach_step ex_access ex_real ex_content [] (bs "/p/main.zc") m_items (bs "/p/a.zc") a_items {| sel := None; alias := None; path := bs "./sub/b.zc" |});
      [exact A|reflexivity|now left]. }
  apply (reach_step ex_access ex_real ex_content [] (bs "/p/main.zc") m_items (bs "/p/sub/b.zc") b_items {| sel := None; alias := None; path := bs "/p/main.zc" |});
    [exact B|reflexivity|]. right. now left.
Qed.

(** A path is the first of the places where there is a file: beside the importing file, in the
    working directory, in the search directories. *)
Lemma search_find access dirs fn : Forall (fun d => length (d ++ bs "/" ++ fn) < 1024) dirs ->
  search access dirs fn = match find access (map (fun d => d ++ bs "/" ++ fn) dirs) with Some p => p | None => fn end.
Proof.
  induction 1 as [|d dirs L F IH]; cbn [search map find]; auto. cbv zeta.
  destruct (Nat.ltb_spec (length (d ++ bs "/" ++ fn)) 1024); [|lia]. cbn [andb].
  destruct (access (d ++ bs "/" ++ fn)); auto.
Qed.
Theorem C82_resolve : forall access real search_dirs cur fn,
  Forall (fun p => length p < 1024) (places search_dirs cur fn) ->
  match find access (places search_dirs cur fn) with
  | Some p => resolve access real search_dirs cur fn = real p
  | None => access (resolve access real search_dirs cur fn) = false
  end.
Proof.
  intros access real dirs cur fn F.
  assert (K : forall q, Forall (fun p => length p < 1024) (q :: map (fun d => d ++ bs "/" ++ q) dirs) ->
    match find access (q :: map (fun d => d ++ bs "/" ++ q) dirs) with
    | Some p => (let r := if access q then q else search access dirs q in if access r then real r else r) = real p
    | None => access (let r := if access q then q else search access dirs q in if access r then real r else r) = false
    end).
  { clear F. intros q F. apply Forall_inv_tail in F. apply Forall_map in F. cbn [find]. cbv zeta.
    rewrite search_find by exact F.
    destruct (access q) eqn:A; [now rewrite A|].
    destruct (find access (map (fun d => d ++ bs "/" ++ q) dirs)) as [p|] eqn:E.
    - apply find_some in E as [_ E]. now rewrite E.
    - now rewrite !A. }
  unfold resolve, places in *. unfold is_abs, is_explicit.
  destruct (split_last (ch "/") cur) as [[d b]|].
  - destruct (is_prefix (bs "/") fn) eqn:AB.
    + now apply K.
    + destruct (is_prefix (bs "./") fn || is_prefix (bs "../") fn) eqn:EX; cbv zeta.
      * cbn [orb]. rewrite firstn_all2; [now apply K|]. apply Forall_inv in F. cbv beta in F. lia.
      * cbn [orb]. pose proof (Forall_inv F) as Q. apply Forall_inv_tail in F. cbv beta in Q.
        assert (Q' : firstn 1023 (d ++ bs "/" ++ fn) = d ++ bs "/" ++ fn) by (apply firstn_all2; lia).
        rewrite Q'. cbn [find].
        destruct (access (d ++ bs "/" ++ fn)) eqn:A; [now rewrite !A|]. now apply K.
  - assert (R : (if is_prefix (bs "/") fn then fn else fn) = fn) by (destruct (is_prefix (bs "/") fn); auto).
    rewrite R. now apply K.
Qed.
Example C82_resolve_case :
  let acc p := beq_bytes p (bs "/p/x.zc") || beq_bytes p (bs "std/x.zc") || beq_bytes p (bs "/lib/y.zc") in
  places [bs "/lib"; bs "/usr"] (bs "/p/main.zc") (bs "x.zc") = [bs "/p/x.zc"; bs "x.zc"; bs "/lib/x.zc"; bs "/usr/x.zc"]
  /\ resolve acc (fun p => p) [bs "/lib"; bs "/usr"] (bs "/p/main.zc") (bs "x.zc") = bs "/p/x.zc"
  /\ resolve acc (fun p => p) [bs "/lib"; bs "/usr"] (bs "/p/main.zc") (bs "y.zc") = bs "/lib/y.zc"
  /\ resolve acc (fun p => p) [bs "/lib"; bs "/usr"] (bs "/q/main.zc") (bs "std/x.zc") = bs "std/x.zc".
Proof. vm_compute. auto. Qed.
(** REFUTED: a path of 1024 bytes or more beside the importing file is cut, so another file may be read. *)
Theorem C82_long_path_refuted : forall access real search_dirs d b rest x,
  let fn := bs "./" ++ rest in
  ~ In (ch "/") b -> 1023 <= length (d ++ bs "/" ++ fn) -> access (firstn 1023 (d ++ bs "/" ++ fn)) = true ->
  resolve access real search_dirs (d ++ bs "/" ++ b) (fn ++ x) = resolve access real search_dirs (d ++ bs "/" ++ b) fn.
Proof.
  intros access real dirs d b rest x fn B L A. unfold resolve.
  change (d ++ bs "/" ++ b) with (d ++ ch "/" :: b). rewrite split_last_app by exact B.
  change (is_abs (fn ++ x)) with false. change (is_abs fn) with false.
  change (is_explicit (fn ++ x)) with true. change (is_explicit fn) with true. cbv zeta. cbn [orb].
  assert (E : firstn 1023 (d ++ bs "/" ++ fn ++ x) = firstn 1023 (d ++ bs "/" ++ fn)).
  { rewrite !app_assoc. rewrite (firstn_app 1023). rewrite <- !app_assoc.
    replace (1023 - length (d ++ bs "/" ++ fn)) with 0 by lia. cbn [firstn]. now rewrite app_nil_r. }
  rewrite E. reflexivity.
Qed.

(** The name of a module is that of its file, and always an identifier's text. *)
Lemma split_last_in c l a b : split_last c l = Some (a, b) -> l = a ++ c :: b.
Proof.
  revert a b. induction l as [|x l IH]; intros a b E; [discriminate|]. cbn [split_last] in E.
  destruct (split_last c l) as [[a' b']|].
  - injection E as <- <-. cbn [app]. f_equal. auto.
  - destruct (N.eqb_spec x c); [|discriminate]. injection E as <- <-. now subst.
Qed.
Lemma name_char_alnum c : name_char c <-> alnum c = true \/ c = ch "_".
Proof.
  unfold name_char, alnum. change (ch "_") with 95%N. rewrite !orb_true_iff, !andb_true_iff, !N.leb_le. tauto.
Qed.
Theorem C82_module_name : forall d stem ext, 
  Forall name_char stem -> ~ In (ch "/") ext -> ~ In (ch "\") ext -> ~ In (ch ".") ext ->
  module_name (d ++ bs "/" ++ stem ++ bs "." ++ ext) = stem.
Proof.
  intros d stem ext F0 E1 E2 E3.
  assert (F : Forall (fun c => alnum c = true \/ c = ch "_") stem) by (eapply Forall_impl; [|exact F0]; intros c; apply name_char_alnum).
  assert (NI : forall c, alnum c = false -> c <> ch "_" -> ~ In c stem).
  { intros c A U I. rewrite Forall_forall in F. destruct (F c I); congruence. }
  assert (N1 : forall c, alnum c = false -> c <> ch "_" -> c <> ch "." -> ~ In c ext -> ~ In c (stem ++ bs "." ++ ext)).
  { intros c A U D E I. apply in_app_or in I as [I|I]; [now apply (NI c A U)|]. destruct I as [I|I]; [now apply D|now apply E]. }
  unfold module_name, after_last. cbv zeta. change (bs "/" ++ stem ++ bs "." ++ ext) with (ch "/" :: stem ++ bs "." ++ ext).
  rewrite split_last_app by (apply N1; auto; discriminate).
  rewrite (split_last_none (ch "\")) by (apply N1; auto; discriminate).
  change (stem ++ bs "." ++ ext) with (stem ++ ch "." :: ext). rewrite split_last_app by auto.
  clear -F. induction F as [|c l H F IH]; cbn [map]; auto. rewrite IH. f_equal.
  destruct H as [H|H]; rewrite H; reflexivity.
Qed.
Theorem C82_module_text : forall p, Forall name_char (module_name p).
Proof.
  intros p. eapply Forall_impl; [intros c; apply name_char_alnum|]. unfold module_name. cbv zeta. apply Forall_map, Forall_forall. intros c _.
  destruct (alnum c) eqn:E; auto.
Qed.
Example C82_module_name_case : module_name (bs "/p/std/my_list.v2.zc") = bs "my_list_v2" /\ module_name (bs "a/list.zc") = bs "list".
Proof. vm_compute. auto. Qed.

(** PARTIAL: when a file without imports of its own is read first under an alias or for a list of names, its
    definitions carry its module's name, and the alias or each name is found again.
    Missing: files with imports (their own aliases are put before), files read before (refuted above). *)
Lemma load_leaf access real content search_dirs main fuel who pre items s : imports items = [] ->
  load access real content search_dirs main (S fuel) who pre items s = Ok (declared who pre items, s).
Proof.
  intros L. rewrite load_unfold. induction items as [|t items IH]; [reflexivity|].
  rewrite load_items_cons. unfold declared, imports in *. cbn [flat_map] in *. destruct (it t) as [n|i]; [|discriminate].
  cbn [bind app] in *. rewrite IH by auto. cbn [bind]. reflexivity.
Qed.
Lemma find_selective_none l n : ~ In n (map (fun y => visible (fst y)) l) -> find_selective l n = None.
Proof.
  induction l as [|[[x o] b] l IH]; intros H; [reflexivity|]. cbn [map fst visible snd] in H. cbn [find_selective].
  assert (H2 : ~ In n (map (fun y => visible (fst y)) l)) by (intros I; apply H; now right).
  destruct o as [a|]; unfold visible in H; cbn [fst snd] in H.
  - destruct (beq_bytes a n) eqn:E; [|auto]. apply beq_bytes_true in E. subst. exfalso. apply H. now left.
  - destruct (beq_bytes x n) eqn:E; [|auto]. apply beq_bytes_true in E. subst. exfalso. apply H. now left.
Qed.
Lemma find_selective_app l1 l2 n : find_selective (l1 ++ l2) n =
  match find_selective l1 n with Some r => Some r | None => find_selective l2 n end.
Proof.
  induction l1 as [|[[x [a|]] b] l1 IH]; cbn [app find_selective]; auto; destruct (beq_bytes _ _); auto.
Qed.
Lemma find_selective_one x b : find_selective [(fst x, snd x, b)] (visible x) = Some (fst x, b).
Proof. destruct x as [x [a|]]; cbn; now rewrite beq_bytes_refl. Qed.
Lemma find_selective_names l b x : NoDup (map visible l) -> In x l ->
  find_selective (rev (map (fun y => (fst y, snd y, b)) l)) (visible x) = Some (fst x, b).
Proof.
  induction l as [|y l IH]; intros N I; [contradiction|]. cbn [map rev] in *. inversion N as [|? ? NI ND]; subst.
  rewrite find_selective_app. destruct I as [I|I]; [subst y|].
  - rewrite find_selective_none; [apply find_selective_one|].
    rewrite map_rev, <- in_rev, map_map. cbn [fst].
    assert (E : map (fun y : bytes * option bytes => visible (fst y, snd y)) l = map visible l)
      by (apply map_ext; intros [? ?]; reflexivity).
    rewrite E. exact NI.
  - now rewrite IH.
Qed.
Theorem C82_names_partial : forall access real content search_dirs main fuel who pre t i s its f,
  it t = Imp i -> f = resolve access real search_dirs (current main who) (path i) -> ~ In f (imported s) ->
  content f = Some its -> imports its = [] -> (forall l, sel i = Some l -> length l <= 32 /\ NoDup (map visible l)) ->
  exists out s', load access real content search_dirs main (S (S fuel)) who pre [t] s = Ok (out, s')
  /\ alike out (declared (Some f) (match sel i, alias i with None, None => pre | _, _ => Some (module_name f) end) its)
  /\ (forall a, sel i = None -> alias i = Some a -> find_module (modules s') a = Some (module_name f))
  /\ (forall l x, sel i = Some l -> In x l -> find_selective (selective s') (visible x) = Some (fst x, module_name f)).
Proof.
  intros access real content dirs main fuel who pre t i s its f T Ef NI C L SEL.
  rewrite load_unfold, load_items_cons, T. unfold import.
  assert (E : (match sel i with Some l => 32 <? length l | None => false end) = false).
  { destruct (sel i) as [l|]; [|reflexivity]. apply Nat.ltb_ge. now apply SEL. }
  rewrite E. cbv zeta. rewrite <- Ef.
  assert (NI' : is_imported f s = false).
  { destruct (is_imported f s) eqn:X; auto. apply is_imported_spec in X. contradiction. }
  rewrite NI', C, load_leaf by exact L. cbn [bind]. change (load_items access real content dirs main (S fuel) who pre [] ?x) with (@Ok (list node * st) ([], x)).
  cbn [bind]. rewrite app_nil_r. eexists _, _. split; [reflexivity|]. splits.
  - replace (prefix_of f i pre) with (match sel i, alias i with None, None => pre | _, _ => Some (module_name f) end)
      by (unfold prefix_of; destruct (sel i), (alias i); reflexivity).
    unfold alike, attach. destruct (declared _ _ _); auto.
  - intros a S A. unfold register. cbn [modules mark]. rewrite S, A. cbn [find_module]. now rewrite beq_bytes_refl.
  - intros l x S I. unfold register. cbn [selective mark]. rewrite S.
    destruct (SEL l S) as (_ & N). rewrite find_selective_app.
    change (fun x0 : bytes * option bytes => (fst x0, snd x0, module_name f)) with (fun x0 : bytes * option bytes => (fst x0, snd x0, module_name f)).
    now rewrite find_selective_names.
Qed.
Example C82_names_case :
  let content p := if beq_bytes p (bs "/p/a.zc") then Some [d None 0 (bs "f"); d None 0 (bs "g")] else None in
  let t := {| cfg := None; attrs := 0; it := Imp {| sel := Some [(bs "f", Some (bs "ff")); (bs "g", None)]; alias := None; path := bs "a.zc" |} |} in
  resolve (fun p => beq_bytes p (bs "/p/a.zc")) (fun p => p) [] (bs "/p/main.zc") (bs "a.zc") = bs "/p/a.zc"
  /\ (do '(out, s) <- load (fun p => beq_bytes p (bs "/p/a.zc")) (fun p => p) content [] (bs "/p/main.zc") 2 None None [t]
          {| imported := []; modules := []; selective := [] |};
      Ok (map (fun n => (nprefix n, nname n)) out, find_selective (selective s) (bs "ff"), find_selective (selective s) (bs "g"),
          find_selective (selective s) (bs "f")))
     = Ok ([(Some (bs "a"), bs "f"); (Some (bs "a"), bs "g")], Some (bs "f", bs "a"), Some (bs "g", bs "a"), None).
Proof. vm_compute. auto. Qed.

Print Assumptions C82_terminates.
Print Assumptions C82_once_partial.
Print Assumptions C82_missing.
Print Assumptions C82_main_refuted.
Print Assumptions C82_attributes_refuted.
Print Assumptions C82_alias_refuted.
Print Assumptions C82_many_refuted.
Print Assumptions C82_modules_refuted.
Print Assumptions C82_resolve.
Print Assumptions C82_long_path_refuted.
Print Assumptions C82_module_name.
Print Assumptions C82_module_text.
Print Assumptions C82_names_partial.
