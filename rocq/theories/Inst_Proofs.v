From Verif Require Import Common Mangle_Model Inst_Model Inst_Spec.
Local Open Scope nat_scope.

(** ** Each instance once, for every program *)
Definition ext (st st' : state) : Prop :=
  exists new, s_structs st' = new ++ s_structs st /\ incl (s_insts st) (s_insts st') /\ NoDup (map fst new) /\
    forall n, In n (map fst new) -> In n (s_insts st') /\ ~ In n (s_insts st).
Lemma ext_refl st : ext st st.
Proof. exists []. split; [reflexivity|split; [apply incl_refl|split; [constructor|intros n []]]]. Qed.
Lemma NoDup_app_disj {A} (l l' : list A) : NoDup l -> NoDup l' -> (forall x, In x l -> ~ In x l') -> NoDup (l ++ l').
Proof.
  induction l as [|x l IH]; cbn; [auto|].
  intros H1 H2 D. inversion H1; subst. constructor.
  - intros H. apply in_app_or in H as [H|H]; [contradiction|]. now apply (D x (or_introl eq_refl)).
  - apply IH; auto.
Qed.
Lemma ext_trans a b c : ext a b -> ext b c -> ext a c.
Proof.
  intros (n1 & E1 & I1 & D1 & P1) (n2 & E2 & I2 & D2 & P2).
  exists (n2 ++ n1). split; [now rewrite E2, E1, app_assoc|]. split; [now apply incl_tran with (s_insts b)|].
  rewrite map_app. split.
  - apply NoDup_app_disj; auto. intros x H1 H2. destruct (P2 x H1) as [_ N]. apply N. now apply P1.
  - intros n H. apply in_app_or in H as [H|H].
    + destruct (P2 n H) as [H1 H2]. split; auto.
    + destruct (P1 n H) as [H1 H2]. split; auto.
Qed.

Lemma existsb_beq m l : existsb (beq_bytes m) l = true <-> In m l.
Proof.
  rewrite existsb_exists. split.
  - intros (x & H & E). now rewrite (beq_bytes_true _ _ E).
  - intros H. exists m. split; auto. apply beq_bytes_refl.
Qed.
Lemma existsb_beq_false m l : existsb (beq_bytes m) l = false <-> ~ In m l.
Proof.
  split; intros H.
  - intros I. apply existsb_beq in I. congruence.
  - destruct (existsb (beq_bytes m) l) eqn:E; auto. apply existsb_beq in E. contradiction.
Qed.

Lemma opt_inst_ext F st o st' : (forall st g a un st', F st g a un = Ok st' -> ext st st') -> opt_inst F st o = Ok st' -> ext st st'.
Proof.
  intros HF. destruct o as [[g a]|]; cbn; [apply HF|]. intros E. injection E as <-. apply ext_refl.
Qed.
Lemma copy_ext F tpls p c fs : (forall st g a un st', F st g a un = Ok st' -> ext st st') ->
  forall st st' r, copy_fields F tpls p c st fs = Ok (st', r) -> ext st st'.
Proof.
  intros HF. induction fs as [|[f t] fs IH]; cbn [copy_fields]; intros st st' r E.
  - injection E as <- _. apply ext_refl.
  - cbn [bind] in E.
    destruct (opt_inst F st _) as [st1| | |] eqn:E1; cbn [bind] in E; try discriminate.
    destruct (opt_inst F st1 _) as [st2| | |] eqn:E2; cbn [bind] in E; try discriminate.
    destruct (copy_fields F tpls p c st2 fs) as [[st3 r3]| | |] eqn:E3; cbn [bind] in E; try discriminate.
    injection E as <- _.
    eapply ext_trans; [eapply opt_inst_ext; eauto|]. eapply ext_trans; [eapply opt_inst_ext; eauto|]. eapply IH; eauto.
Qed.
Lemma inst_ext fuel tpls : forall st g a un st', inst_generic fuel tpls st g a un = Ok st' -> ext st st'.
Proof.
  induction fuel as [|fuel IH]; cbn [inst_generic]; intros st g a un st' E; [discriminate|].
  destruct (placeholder a); [injection E as <-; apply ext_refl|].
  destruct (mangled g [a]) as [m| | |]; cbn [bind] in E; try discriminate.
  destruct (existsb (beq_bytes m) (s_insts st)) eqn:X; [injection E as <-; apply ext_refl|].
  apply existsb_beq_false in X.
  destruct (find_template tpls g) as [t|]; [|discriminate].
  destruct (copy_fields _ tpls (t_param t) un _ (t_fields t)) as [[st1 fs]| | |] eqn:C; cbn [bind] in E; try discriminate.
  injection E as <-.
  apply (copy_ext _ _ _ _ _ IH) in C. destruct C as (new & E1 & I1 & D1 & P1). cbn [s_insts s_structs] in *.
  exists ((m, fs) :: new). cbn [s_insts s_structs map fst]. split; [now rewrite E1|].
  split; [intros x H; apply I1; now right|]. split.
  - constructor; auto. intros H. apply P1 in H as [_ H]. apply H. now left.
  - intros n [<-|H].
    + split; auto. apply I1. now left.
    + apply P1 in H as [H1 H2]. split; auto. intros H. apply H2. now right.
Qed.
Lemma read_ext fuel tpls known t : forall st st' f, read_type fuel tpls known st t = Ok (st', f) -> ext st st'.
Proof.
  induction t as [s c|n|t IH|g t IH]; cbn [read_type]; intros st st' f E.
  - injection E as <- _. apply ext_refl.
  - injection E as <- _. apply ext_refl.
  - destruct (read_type fuel tpls known st t) as [[s1 f1]| | |] eqn:E1; cbn [bind] in E; try discriminate.
    injection E as <- _. eauto.
  - destruct (read_type fuel tpls known st t) as [[s1 f1]| | |] eqn:E1; cbn [bind] in E; try discriminate.
    apply IH in E1.
    destruct (existsb _ known).
    + cbn [bind] in E. destruct (mangled g [to_str f1]); cbn [bind] in E; try discriminate. injection E as <- _. auto.
    + destruct (inst_generic fuel tpls s1 g _ _) as [s2| | |] eqn:E2; cbn [bind] in E; try discriminate.
      destruct (mangled g [to_str f1]); cbn [bind] in E; try discriminate. injection E as <- _.
      eapply ext_trans; eauto. eapply inst_ext; eauto.
Qed.
Lemma read_fields_ext fuel tpls known fs : forall st st' r, read_fields fuel tpls known st fs = Ok (st', r) -> ext st st'.
Proof.
  induction fs as [|[f t] fs IH]; cbn [read_fields]; intros st st' r E; [injection E as <- _; apply ext_refl|].
  destruct (read_type fuel tpls known st t) as [[s1 f1]| | |] eqn:E1; cbn [bind] in E; try discriminate.
  destruct (read_fields fuel tpls known s1 fs) as [[s2 f2]| | |] eqn:E2; cbn [bind] in E; try discriminate.
  injection E as <- _. eapply ext_trans; [eapply read_ext; eauto|]. eauto.
Qed.
Lemma run_ext fuel l : forall pr pr', run_items fuel pr l = Ok pr' -> ext (p_st pr) (p_st pr').
Proof.
  induction l as [|i l IH]; cbn [run_items]; intros pr pr' E; [injection E as <-; apply ext_refl|].
  destruct (run_item fuel pr i) as [pr1| | |] eqn:E1; cbn [bind] in E; try discriminate.
  apply IH in E. eapply ext_trans; [|exact E]. clear E.
  destruct i as [n p fs|n fs|t]; cbn [run_item] in E1.
  - destruct (read_fields _ _ _ _ _) as [[s1 f1]| | |] eqn:E2; cbn [bind] in E1; try discriminate.
    injection E1 as <-. cbn [p_st]. eapply read_fields_ext; eauto.
  - destruct (read_fields _ _ _ _ _) as [[s1 f1]| | |] eqn:E2; cbn [bind] in E1; try discriminate.
    injection E1 as <-. cbn [p_st]. eapply read_fields_ext; eauto.
  - destruct (read_type _ _ _ _ _) as [[s1 f1]| | |] eqn:E2; cbn [bind] in E1; try discriminate.
    injection E1 as <-. cbn [p_st]. eapply read_ext; eauto.
Qed.
Lemma once fuel l pr : run_items fuel (Prog [] (St [] []) []) l = Ok pr -> NoDup (map fst (s_structs (p_st pr))).
Proof.
  intros E. apply run_ext in E. destruct E as (new & E & _ & D & _). cbn in E. rewrite app_nil_r in E. now rewrite E.
Qed.

(** ** Words *)
Lemma word_no c n : word n -> (c = 42 \/ c = 95 \/ c = 32)%N -> ~ In c n.
Proof. intros [_ W] H I. rewrite Forall_forall in W. apply W in I. lia. Qed.
Lemma clean_word c : (97 <= c <= 122 \/ 65 <= c <= 90 \/ 48 <= c <= 57)%N -> clean_char c = [c].
Proof.
  intros H. unfold clean_char, ident_char.
  replace (c =? 42)%N with false by (symmetry; apply N.eqb_neq; lia).
  replace (c =? 60)%N with false by (symmetry; apply N.eqb_neq; lia).
  replace (c =? 44)%N with false by (symmetry; apply N.eqb_neq; lia).
  replace (c =? 32)%N with false by (symmetry; apply N.eqb_neq; lia).
  replace (c =? 62)%N with false by (symmetry; apply N.eqb_neq; lia).
  replace (c =? 38)%N with false by (symmetry; apply N.eqb_neq; lia).
  cbn [orb].
  destruct (N.leb_spec 97 c), (N.leb_spec c 122), (N.leb_spec 65 c), (N.leb_spec c 90), (N.leb_spec 48 c), (N.leb_spec c 57);
    cbn [andb orb]; auto; lia.
Qed.
Lemma not_struct n : ~ In 32%N n -> is_prefix (bs "struct ") n = false.
Proof.
  intros H. destruct (is_prefix (bs "struct ") n) eqn:E; auto. exfalso.
  apply is_prefix_spec in E as [r ->]. apply H. apply in_or_app. left. cbn. tauto.
Qed.
Lemma sanitize_word n : word n -> sanitize n = n.
Proof.
  intros W. unfold sanitize. rewrite not_struct by (apply word_no; auto).
  destruct W as [_ W]. induction W as [|c n H W IH]; auto. cbn [flat_map]. rewrite (clean_word c H), IH. reflexivity.
Qed.

Lemma ends_with_app suf x : ends_with suf (x ++ suf) = true.
Proof.
  unfold ends_with. rewrite app_length. apply andb_true_intro. split; [apply Nat.leb_le; lia|].
  replace (length x + length suf - length suf) with (length x) by lia.
  rewrite skipn_app, skipn_all, Nat.sub_diag. cbn. apply beq_bytes_refl.
Qed.
Lemma strip_app suf x : strip suf (x ++ suf) = x.
Proof.
  unfold strip. rewrite app_length. replace (length x + length suf - length suf) with (length x) by lia.
  now rewrite firstn_app, Nat.sub_diag, firstn_all, app_nil_r.
Qed.
Lemma ends_with_true suf s : ends_with suf s = true -> s = strip suf s ++ suf.
Proof.
  unfold ends_with, strip. intros H. apply andb_prop in H as [_ H]. apply beq_bytes_true in H.
  transitivity (firstn (length s - length suf) s ++ skipn (length s - length suf) s); [now rewrite firstn_skipn|now rewrite H].
Qed.
Lemma ends_with_false suf s : ~ (exists x, s = x ++ suf) -> ends_with suf s = false.
Proof. intros H. destruct (ends_with suf s) eqn:E; auto. apply ends_with_true in E. exfalso. eauto. Qed.
Lemma beq_false a b : a <> b -> beq_bytes a b = false.
Proof. intros H. now destruct (beq_bytes_spec a b). Qed.

Lemma app_last_inj {A} (x y : list A) a b : x ++ [a] = y ++ [b] -> x = y /\ a = b.
Proof. apply app_inj_tail. Qed.
Lemma word_last n : word n -> exists x c, n = x ++ [c] /\ (c <> 42 /\ c <> 95)%N.
Proof.
  intros W. destruct (exists_last (proj1 W)) as (x & c & E). exists x, c. split; auto.
  assert (In c n) by (rewrite E; apply in_or_app; right; now left).
  split; intros ->; [apply (word_no 42%N n W) in H|apply (word_no 95%N n W) in H]; auto.
Qed.

(** ** The text of a field *)
Lemma replace_same fuel p : sanitize p = p -> forall src, replace_str fuel src p p = src.
Proof.
  intros S. induction fuel as [|fuel IH]; intros src; cbn [replace_str].
  - destruct (beq_bytes_spec src p); auto. destruct (ends_with (95%N :: p) src) eqn:E; auto.
    rewrite S. symmetry. now apply ends_with_true.
  - destruct (beq_bytes_spec src p); auto. destruct (ends_with (95%N :: p) src) eqn:E.
    { rewrite S. symmetry. now apply ends_with_true. }
    rewrite !IH, !beq_bytes_refl. destruct (_ && _); destruct (is_prefix _ _); auto.
Qed.
Lemma subst_same p t : subst p (SName p) t = t.
Proof.
  induction t; cbn [subst]; try congruence. now destruct (beq_bytes_spec n p) as [->|].
Qed.

Fixpoint formal (t : sty) : fty :=
  match t with
  | SPrim s c => FPrim s c
  | SName n => FName n
  | SPtr t => FPtr (formal t)
  | SApp g t => FName (g ++ 95%N :: sanitize (to_str (formal t)))
  end.
Lemma formal_str t : to_str (formal t) = arg_name t.
Proof. induction t as [| |t IH|g t IH]; cbn [formal to_str arg_name]; auto; now rewrite IH. Qed.
Lemma formal_c t : to_c (formal t) = c_type t.
Proof. induction t as [| |t IH|g t IH]; cbn [formal to_c c_type arg_name]; auto; [now rewrite IH|now rewrite formal_str]. Qed.

Lemma slice_star x : (exists r, x ++ [42%N] = bs "Slice_" ++ r) -> exists r, x = bs "Slice_" ++ r.
Proof.
  intros [r E]. destruct r as [|c r] using rev_ind.
  - exfalso. assert (In 42%N (bs "Slice_")) by (rewrite app_nil_r in E; rewrite <- E; apply in_or_app; right; now left).
    cbn in H. intuition discriminate.
  - rewrite app_assoc in E. apply app_last_inj in E as [E _]. eauto.
Qed.
Lemma slice_false s : ~ (exists r, s = bs "Slice_" ++ r) -> is_prefix (bs "Slice_") s = false.
Proof. intros H. destruct (is_prefix (bs "Slice_") s) eqn:E; auto. apply is_prefix_spec in E. contradiction. Qed.

Lemma c_app g n : word n -> c_type (SApp g (SName n)) = g ++ 95%N :: n.
Proof. intros W. cbn [c_type arg_name]. now rewrite sanitize_word. Qed.

Lemma text_diff ds p a t : word p -> word a -> a <> p -> field_type ds p t ->
  forall fuel, length (c_type t) <= fuel ->
  replace_str fuel (c_type t) p a = c_type (subst p (SName a) t) /\
  (c_type (subst p (SName a) t) = c_type t -> ~ exists r, c_type t = bs "Slice_" ++ r).
Proof.
  intros Wp Wa D F. assert (Star : forall x, ends_with (95%N :: p) (x ++ [42%N]) = false).
  { intros x. apply ends_with_false. intros [y E]. destruct (word_last p Wp) as (z & c & -> & N1 & _).
    rewrite app_comm_cons, app_assoc in E. apply app_last_inj in E as [_ E]. congruence. }
  assert (U : forall n, unrelated ds p n -> forall fuel, replace_str fuel n p a = n).
  { intros n (N1 & N2 & N3 & N4 & _) fuel.
    assert (E1 : beq_bytes n p = false) by now apply beq_false.
    assert (E2 : ends_with (95%N :: p) n = false) by (apply ends_with_false; exact N3).
    assert (E3 : ends_with [42%N] n = false).
    { apply ends_with_false. intros [x ->]. apply N2. apply in_or_app. right. now left. }
    destruct fuel; cbn [replace_str]; rewrite E1, E2; auto. rewrite E3, andb_false_r.
    now rewrite (slice_false n N4). }
  induction F as [|s c Hu|n Hu|t F IH|g Hg]; intros fuel L.
  - cbn [c_type arg_name subst] in *. rewrite beq_bytes_refl. cbn [c_type arg_name].
    split; [|congruence]. destruct fuel; cbn [replace_str]; now rewrite beq_bytes_refl.
  - cbn [c_type subst] in *. split; [now apply U|]. intros _. apply Hu.
  - cbn [c_type subst arg_name] in *. rewrite (beq_false n p) by apply Hu. cbn [c_type arg_name].
    split; [now apply U|]. intros _. apply Hu.
  - cbn [c_type subst] in *. rewrite app_length in L. cbn in L. destruct fuel as [|fuel]; [lia|].
    destruct (IH fuel ltac:(lia)) as [IH1 IH2].
    split.
    + cbn [replace_str].
      change (bs "*") with [42%N].
      rewrite (beq_false (c_type t ++ [42%N]) p).
      2:{ intros E. apply (word_no 42%N p Wp); auto. rewrite <- E. apply in_or_app. right. now left. }
      rewrite Star, strip_app, IH1, ends_with_app, andb_true_r, app_length. cbn [length].
      destruct (Nat.ltb_spec 1 (length (c_type t) + 1)) as [L1|L1].
      * destruct (beq_bytes_spec (c_type (subst p (SName a) t)) (c_type t)) as [E|E]; auto.
        rewrite slice_false; [now rewrite E|]. intros H. apply slice_star in H. now apply IH2.
      * assert (E0 : c_type t = []) by (destruct (c_type t); auto; cbn in L1; lia).
        rewrite E0 in *. cbn [app]. replace (is_prefix (bs "Slice_") [42%N]) with false by reflexivity.
        rewrite <- IH1. clear -Wp. destruct fuel; cbn [replace_str]; rewrite (beq_false [] p) by (intros <-; now apply (proj1 Wp));
          rewrite ends_with_false by (intros [x E]; destruct x; discriminate); reflexivity.
    + intros E H. apply app_last_inj in E as [E _]. apply IH2; auto. now apply slice_star.
  - cbn [subst]. rewrite beq_bytes_refl, !c_app by auto. split.
    + assert (E : replace_str fuel (g ++ 95%N :: p) p a = strip (95%N :: p) (g ++ 95%N :: p) ++ 95%N :: sanitize a).
      { destruct fuel; cbn [replace_str]; rewrite ends_with_app, beq_false; auto;
        intros E; apply (word_no 95%N p Wp); auto; rewrite <- E; apply in_or_app; right; now left. }
      now rewrite E, strip_app, sanitize_word.
    + intros E. apply app_inv_head in E. congruence.
Qed.
Lemma text_ok ds p a t : word p -> word a -> field_type ds p t ->
  replace_str (length (to_c (formal t))) (to_c (formal t)) p a = c_type (subst p (SName a) t).
Proof.
  intros Wp Wa F. rewrite formal_c. destruct (beq_bytes_spec a p) as [->|D].
  - rewrite replace_same by now apply sanitize_word. now rewrite subst_same.
  - apply (text_diff ds p a t Wp Wa D F); auto.
Qed.

(** ** What the fields ask for *)
Lemma rsplit_none s : ~ In 95%N s -> rsplit s = None.
Proof.
  induction s as [|c s IH]; cbn [rsplit]; auto. intros H. rewrite IH by (intros X; apply H; now right).
  destruct (N.eqb_spec c 95) as [->|]; auto. exfalso. apply H. now left.
Qed.
Lemma rsplit_app g b : ~ In 95%N b -> rsplit (g ++ 95%N :: b) = Some (g, b).
Proof.
  intros H. induction g as [|c g IH]; cbn [app rsplit].
  - now rewrite rsplit_none.
  - now rewrite IH.
Qed.
Lemma rsplit_some s g b : rsplit s = Some (g, b) -> s = g ++ 95%N :: b.
Proof.
  revert g b. induction s as [|c s IH]; cbn [rsplit]; intros g b E; [discriminate|].
  destruct (rsplit s) as [[x y]|].
  - injection E as <- <-. now rewrite (IH x y eq_refl).
  - destruct (N.eqb_spec c 95) as [->|]; [|discriminate]. now injection E as <- <-.
Qed.
Lemma before_star_app x k : ~ In 42%N x -> before_star (x ++ repeat 42%N k) = x.
Proof.
  induction x as [|c x IH]; cbn [app before_star]; intros H.
  - destruct k; reflexivity.
  - destruct (N.eqb_spec c 42) as [->|]; [exfalso; apply H; now left|]. rewrite IH; auto. intros X. apply H. now right.
Qed.
Lemma repeat_snoc {A} (x : A) k : repeat x k ++ [x] = repeat x (S k).
Proof. induction k as [|k IH]; cbn [repeat app] in *; [reflexivity|]. now rewrite IH. Qed.
(** a field type is a core with stars *)
Fixpoint stars (t : sty) : nat := match t with SPtr t => S (stars t) | _ => 0 end.
Fixpoint core (t : sty) : sty := match t with SPtr t => core t | t => t end.
Lemma c_stars t : c_type t = c_type (core t) ++ repeat 42%N (stars t).
Proof.
  induction t as [| |t IH|]; cbn [core stars repeat]; rewrite ?app_nil_r; auto.
  cbn [c_type]. rewrite IH at 1. rewrite <- app_assoc. f_equal. change (bs "*") with [42%N]. apply repeat_snoc.
Qed.
Lemma core_subst p a n t : core (subst p (SName n) t) = core (subst p (SName n) (core t)) /\ (a = n -> stars (subst p (SName n) t) = stars t).
Proof.
  induction t as [s c| m |t IH|g t IH]; cbn [core subst stars].
  - auto.
  - destruct (beq_bytes m p); auto.
  - destruct IH as [H1 H2]. split; [exact H1|]. intros E. f_equal. exact (H2 E).
  - auto.
Qed.
Lemma core_field ds p t : field_type ds p t -> field_type ds p (core t).
Proof. induction 1; cbn [core]; auto; constructor; auto. Qed.

Section Region.
Variable ds : list tdecl.
Hypothesis Good : good_decls ds.
Definition names : list bytes := map (fun d : tdecl => fst (fst d)) ds.
Definition tpl_of (d : tdecl) : template :=
  let '(n, p, fs) := d in Template n p (map (fun '(f, t) => (f, formal t)) fs).
Variable tpls : list template.
Hypothesis Tpls : forall t, In t tpls <-> exists d, In d ds /\ t = tpl_of d.

Lemma names_word g : In g names -> word g /\ length g < 100.
Proof. intros H. apply in_map_iff in H as ([[n p] fs] & <- & H). apply Good in H. cbn. tauto. Qed.
Lemma find_names g : In g names -> exists p fs, In (g, p, fs) ds /\ find_template tpls g = Some (tpl_of (g, p, fs)).
Proof.
  intros H. unfold find_template. destruct (find (fun t => beq_bytes (t_name t) g) tpls) as [t|] eqn:E.
  - apply find_some in E as [E1 E2]. apply beq_bytes_true in E2. apply Tpls in E1 as ([[n p] fs] & E1 & ->). cbn in E2. subst n.
    exists p, fs. auto.
  - exfalso. apply in_map_iff in H as ([[n p] fs] & <- & H).
    assert (X := find_none _ _ E (tpl_of (n, p, fs)) ltac:(apply Tpls; eauto)). cbn in X. rewrite beq_bytes_refl in X. discriminate.
Qed.
Lemma find_some_names g t : find_template tpls g = Some t -> In g names.
Proof.
  intros E. unfold find_template in E. apply find_some in E as [E1 E2]. apply beq_bytes_true in E2. subst g.
  apply Tpls in E1 as ([[n p] fs] & E1 & ->). apply in_map_iff. exists (n, p, fs). auto.
Qed.
Lemma decl_unique g p fs p' fs' : In (g, p, fs) ds -> In (g, p', fs') ds -> (p, fs) = (p', fs').
Proof.
  assert (N : NoDup names) by apply Good. clear Tpls. unfold names in N.
  clear Good. induction ds as [|d l IH]; cbn in *; [easy|]. inversion N as [|x y N1 N2]; subst.
  intros [->|H1] [H2|H2].
  - congruence.
  - exfalso. apply N1. apply in_map_iff. exists (g, p', fs'). auto.
  - exfalso. apply N1. apply in_map_iff. exists (g, p, fs). subst d. auto.
  - auto.
Qed.

Lemma find_app g a : In g names -> find (fun t => is_prefix (t_name t ++ [95%N]) (g ++ 95%N :: a)) tpls <> None /\
  forall t, find (fun t => is_prefix (t_name t ++ [95%N]) (g ++ 95%N :: a)) tpls = Some t -> t_name t = g.
Proof.
  intros H. split.
  - intros E. apply in_map_iff in H as ([[n p] fs] & <- & H).
    assert (X := find_none _ _ E (tpl_of (n, p, fs)) ltac:(apply Tpls; eauto)). cbn [tpl_of t_name fst] in X.
    assert (is_prefix (n ++ [95%N]) (n ++ 95%N :: a) = true); [|congruence].
    apply is_prefix_spec. exists a. now rewrite <- app_assoc.
  - intros t E. apply find_some in E as [E1 E2]. apply is_prefix_spec in E2 as [r E2].
    apply Tpls in E1 as ([[n p] fs] & E1 & ->). cbn [tpl_of t_name] in *.
    assert (Wn : word n) by (apply Good in E1; tauto). assert (Wg : word g) by now apply names_word.
    apply (word_no 95%N) in Wn, Wg; auto. rewrite <- app_assoc in E2. cbn [app] in E2.
    clear -Wn Wg E2. revert n Wn E2. induction g as [|c g IH]; intros [|d n] Wn E; cbn [app] in E; auto.
    + injection E as <- _. exfalso. apply Wn. now left.
    + injection E as -> _. exfalso. apply Wg. now left.
    + injection E as -> E. f_equal. apply IH; auto; intros X; [apply Wg|apply Wn]; now right.
Qed.
Lemma find_unrelated p n : unrelated ds p n -> find (fun t => is_prefix (t_name t ++ [95%N]) n) tpls = None.
Proof.
  intros U. destruct (find _ tpls) as [t|] eqn:E; auto. exfalso. apply find_some in E as [E1 E2].
  apply is_prefix_spec in E2 as [r ->]. apply Tpls in E1 as ([[m q] fs] & E1 & ->).
  destruct U as (_ & _ & _ & _ & U). apply (U _ r E1). cbn. now rewrite <- app_assoc.
Qed.

Lemma guess_text_ok p a t : word p -> word a -> field_type ds p t ->
  guess_text tpls (c_type (subst p (SName a) t)) =
    match core t with SApp g _ => Some (g, a) | _ => None end.
Proof.
  intros Wp Wa F. destruct (core_subst p a a t) as [C1 C2]. specialize (C2 eq_refl).
  rewrite c_stars, C1, C2. apply core_field in F.
  assert (Ncore : core (core t) = core t) by (clear; induction t; cbn; auto).
  unfold guess_text.
  assert (Uok : forall n k, unrelated ds p n -> match rsplit (n ++ repeat 42%N k) with Some ([], _) | None => None | Some _ =>
     match rsplit (before_star (n ++ repeat 42%N k)) with Some (g, x) => if find_template tpls g then Some (g, x) else None | None => None end end = None).
  { intros n k (_ & N2 & _ & _ & N5).
    assert (X : match rsplit (before_star (n ++ repeat 42%N k)) with Some (g, x) => if find_template tpls g then Some (g, x) else None | None => None end = None).
    { rewrite before_star_app by auto. destruct (rsplit n) as [[g x]|] eqn:E; auto. apply rsplit_some in E.
      destruct (find_template tpls g) as [tt|] eqn:E2; auto. apply find_some_names in E2. apply in_map_iff in E2 as (d & <- & E2).
      exfalso. now apply (N5 d x E2). }
    rewrite X. destruct (rsplit (n ++ repeat 42%N k)) as [[[|? ?] ?]|]; auto. }
  destruct (core t) as [s c|n|t'|g t'] eqn:Ct; cbn [core] in Ncore.
  - inversion F; subst. cbn [subst core c_type]. now apply Uok.
  - cbn [subst]. destruct (beq_bytes_spec n p) as [->|D].
    + cbn [core c_type arg_name].
      rewrite rsplit_none; auto. intros X. apply in_app_or in X as [X|X].
      * now apply (word_no 95%N a Wa) in X; auto.
      * apply repeat_spec in X. discriminate.
    + inversion F; subst; [congruence|]. cbn [core c_type arg_name]. now apply Uok.
  - exfalso. clear -Ct. induction t; cbn in Ct; try congruence; auto.
  - inversion F as [| | | |g' Hg]; subst. cbn [subst core]. rewrite beq_bytes_refl, c_app by auto.
    destruct (names_word g Hg) as [Wg _].
    rewrite <- app_assoc. cbn [app].
    rewrite rsplit_app.
    2:{ intros X. apply in_app_or in X as [X|X]; [now apply (word_no 95%N a Wa) in X; auto|]. apply repeat_spec in X. discriminate. }
    destruct g as [|c0 g0] eqn:Eg; [now destruct Wg|]. rewrite <- Eg in *.
    replace (g ++ 95%N :: a ++ repeat 42%N (stars t)) with ((g ++ 95%N :: a) ++ repeat 42%N (stars t)) by (rewrite <- app_assoc; reflexivity).
    rewrite before_star_app.
    2:{ intros X. apply in_app_or in X as [X|[X|X]]; [now apply (word_no 42%N g Wg) in X; auto|discriminate|now apply (word_no 42%N a Wa) in X; auto]. }
    rewrite rsplit_app by (apply word_no; auto).
    destruct (find_names g Hg) as (q & fs & _ & ->). reflexivity.
Qed.
Lemma from_str_word a : word a -> from_str (S (length a)) a = FPrim a a \/ from_str (S (length a)) a = FName a.
Proof.
  intros W. cbn [from_str]. rewrite ends_with_false.
  2:{ intros [x ->]. apply (word_no 42%N _ W); auto. apply in_or_app. right. now left. }
  rewrite not_struct by (apply word_no; auto). destruct (helper_prim a); auto. now rewrite sanitize_word; auto.
Qed.
Lemma mem_false c s : ~ In c s -> mem c s = false.
Proof.
  intros H. unfold mem. destruct (existsb (N.eqb c) s) eqn:E; auto. apply existsb_exists in E as (x & E1 & E2).
  apply N.eqb_eq in E2. subst. contradiction.
Qed.
Lemma guess_formal_ok p a t : word p -> word a -> field_type ds p t ->
  guess_formal tpls (replace_formal (formal t) p a) = match t with SPtr (SApp g _) => Some (g, a) | _ => None end.
Proof.
  intros Wp Wa F. destruct F as [|s c Hu|n Hu|t F|g Hg]; cbn [formal replace_formal].
  - rewrite beq_bytes_refl. destruct (from_str_word a Wa) as [->| ->]; reflexivity.
  - reflexivity.
  - rewrite beq_false by apply Hu. rewrite ends_with_false by apply Hu. reflexivity.
  - destruct F as [|s c Hu|n Hu|t F|g Hg]; cbn [formal replace_formal].
    + rewrite beq_bytes_refl. destruct (from_str_word a Wa) as [->| ->]; cbn [guess_formal]; auto.
      rewrite mem_false by (apply word_no; auto). reflexivity.
    + reflexivity.
    + rewrite beq_false by apply Hu. rewrite ends_with_false by apply Hu. cbn [guess_formal].
      rewrite (find_unrelated p n Hu). now destruct (mem 95 n).
    + reflexivity.
    + cbn [to_str]. rewrite sanitize_word by auto. rewrite ends_with_app, strip_app, sanitize_word by auto.
      rewrite beq_false.
      2:{ intros E. apply (word_no 95%N p Wp); auto. rewrite <- E. apply in_or_app. right. now left. }
      cbn [guess_formal].
      replace (mem 95 (g ++ 95%N :: a)) with true.
      2:{ symmetry. unfold mem. apply existsb_exists. exists 95%N. split; [apply in_or_app; right; now left|reflexivity]. }
      destruct (find_app g a Hg) as [N1 N2]. destruct (find _ tpls) as [t|]; [|congruence].
      rewrite (N2 t eq_refl). f_equal. f_equal.
      rewrite skipn_app, skipn_all2 by lia. replace (length g + 1 - length g) with 1 by lia. reflexivity.
  - cbn [to_str]. rewrite sanitize_word by auto. rewrite ends_with_app, strip_app, sanitize_word by auto.
    rewrite beq_false; [reflexivity|]. intros E. apply (word_no 95%N p Wp); auto. rewrite <- E. apply in_or_app. right. now left.
Qed.
Lemma mentions_core p t g : field_type ds p t -> (mentions p g t <-> exists x, core t = SApp g x).
Proof.
  intros F. induction F as [| | |t F IH|g' Hg]; cbn [mentions core].
  - split; [easy|intros [x E]; discriminate].
  - split; [easy|intros [x E]; discriminate].
  - split; [easy|intros [x E]; discriminate].
  - exact IH.
  - split; [intros [-> _]; eauto|]. intros [x E]. injection E as -> _. auto.
Qed.
Lemma mentions_names p t g : field_type ds p t -> mentions p g t -> In g names.
Proof.
  intros F M. induction F as [| | |t F IH|g' Hg]; cbn [mentions] in M; try easy; auto. now destruct M as [<- _].
Qed.

(** ** The instances *)
Definition nm (g a : bytes) : bytes := g ++ 95%N :: a.
Lemma nm_inj g a g' a' : word g -> word g' -> word a -> word a' -> nm g a = nm g' a' -> g = g' /\ a = a'.
Proof.
  intros W1 W2 W3 W4 E. unfold nm in E.
  assert (X : rsplit (g ++ 95%N :: a) = Some (g, a)) by (apply rsplit_app, word_no; auto).
  rewrite E, rsplit_app in X by (apply word_no; auto). now injection X as -> ->.
Qed.
Lemma mangled_nm g a : word a -> length g < 100 -> length a < 100 -> mangled g [a] = Ok (nm g a).
Proof.
  intros W L1 L2. unfold mangled. cbn [flat_map]. rewrite app_nil_r, sanitize_word by auto. fold (nm g a).
  assert (L : length (nm g a) < 256) by (unfold nm; rewrite app_length; cbn; lia).
  apply Nat.ltb_lt in L. now rewrite L.
Qed.
Lemma placeholder_good a : good_arg a -> placeholder a = false.
Proof.
  intros (_ & _ & H & _). unfold placeholder. destruct a as [|c [|d a]]; auto.
  destruct (N.leb_spec 65 c), (N.leb_spec c 90); auto. exfalso. apply H. exists c. auto.
Qed.
Lemma unmangle_good a : good_arg a -> unmangle a = a.
Proof.
  intros (_ & _ & _ & H). unfold unmangle. rewrite (ends_with_false (bs "Ptr") a) by exact H. now rewrite orb_true_r.
Qed.

Definition body (p a : bytes) (fs : list (bytes * sty)) : list (bytes * bytes) :=
  map (fun '(f, t) => (f, c_type (subst p (SName a) t))) fs.
Record Inv (st : state) : Prop := {
  inv_sub : forall n, In n (map fst (s_structs st)) -> In n (s_insts st);
  inv_body : forall n b, In (n, b) (s_structs st) -> exists g p fs a, In (g, p, fs) ds /\ good_arg a /\ n = nm g a /\ b = body p a fs /\
      forall f t g', In (f, t) fs -> mentions p g' t -> In (nm g' a) (s_insts st)
}.
Definition missing (st : state) (a : bytes) : nat :=
  length (filter (fun g => negb (existsb (beq_bytes (nm g a)) (s_insts st))) names).
Lemma filter_le {A} (f g : A -> bool) l : (forall x, f x = true -> g x = true) -> length (filter f l) <= length (filter g l).
Proof.
  intros H. induction l as [|x l IH]; cbn; auto. destruct (f x) eqn:E; [rewrite (H x E); cbn; lia|]. destruct (g x); cbn; lia.
Qed.
Lemma filter_lt {A} (f g : A -> bool) l x : (forall x, f x = true -> g x = true) -> In x l -> f x = false -> g x = true ->
  length (filter f l) < length (filter g l).
Proof.
  intros H I F G. induction l as [|y l IH]; [easy|]. cbn [filter]. destruct I as [->|I].
  - rewrite F, G. cbn. apply le_n_S. now apply filter_le.
  - destruct (f y) eqn:E; [rewrite (H y E); cbn; now apply IH in I; lia|]. apply IH in I. destruct (g y); cbn; lia.
Qed.
Lemma missing_le st st' a : incl (s_insts st) (s_insts st') -> missing st' a <= missing st a.
Proof.
  intros H. apply filter_le. intros g E. apply negb_true_iff in E. apply negb_true_iff. apply existsb_beq_false in E. apply existsb_beq_false.
  intros X. now apply E, H.
Qed.
Lemma missing_lt st a g : In g names -> ~ In (nm g a) (s_insts st) -> missing (St (nm g a :: s_insts st) (s_structs st)) a < missing st a.
Proof.
  intros H N. apply filter_lt with g; auto.
  - intros x E. apply negb_true_iff in E. apply negb_true_iff. apply existsb_beq_false in E. apply existsb_beq_false.
    cbn [s_insts] in E. intros X. apply E. now right.
  - apply negb_false_iff. apply existsb_beq. now left.
  - apply negb_true_iff. now apply existsb_beq_false.
Qed.

Definition grown (st st' : state) : Prop := Inv st' /\ incl (s_insts st) (s_insts st').
Lemma grown_refl st : Inv st -> grown st st.
Proof. intros H. split; auto. apply incl_refl. Qed.
Definition Spec (F : state -> bytes -> bytes -> bytes -> res state) (k : nat) : Prop :=
  forall st g a, Inv st -> In g names -> good_arg a -> missing st a < k ->
  exists st', F st g a a = Ok st' /\ grown st st' /\ In (nm g a) (s_insts st') /\
    incl (s_structs st) (s_structs st') /\
    forall n, In n (s_insts st') -> In n (s_insts st) \/ (In n (map fst (s_structs st')) /\ exists g', needs ds g g' /\ n = nm g' a).

Lemma opt_ok F k a st o : Spec F k -> good_arg a -> Inv st -> missing st a < k ->
  (forall g x, o = Some (g, x) -> In g names /\ x = a) ->
  exists st', opt_inst F st o = Ok st' /\ grown st st' /\ incl (s_structs st) (s_structs st') /\
    (forall g x, o = Some (g, x) -> In (nm g a) (s_insts st')) /\
    forall n, In n (s_insts st') -> In n (s_insts st) \/
      (In n (map fst (s_structs st')) /\ exists g x g', o = Some (g, x) /\ needs ds g g' /\ n = nm g' a).
Proof.
  intros HF Ga I M O. destruct o as [[g x]|]; cbn [opt_inst].
  - destruct (O g x eq_refl) as [Hg ->]. rewrite unmangle_good by auto.
    destruct (HF st g a I Hg Ga M) as (st' & E & G1 & N & S1 & X). exists st'. split; auto. split; auto. split; auto.
    split; [intros g0 x0 Q; injection Q as <- _; auto|].
    intros n H. apply X in H as [H|(H & g' & H1 & H2)]; auto. right. split; auto. exists g, a, g'. auto.
  - exists st. split; auto. split; [now apply grown_refl|]. split; [apply incl_refl|]. split; [discriminate|auto].
Qed.
Lemma grown_trans a b c : grown a b -> grown b c -> grown a c.
Proof. intros [H1 H2] [H3 H4]. split; auto. eapply incl_tran; eauto. Qed.

Lemma copy_ok F k p a : Spec F k -> word p -> good_arg a -> forall fs st,
  (forall f t, In (f, t) fs -> field_type ds p t) -> Inv st -> missing st a < k ->
  exists st', copy_fields F tpls p a st (map (fun '(f, t) => (f, formal t)) fs) = Ok (st', body p a fs) /\ grown st st' /\
    incl (s_structs st) (s_structs st') /\
    (forall f t g', In (f, t) fs -> mentions p g' t -> In (nm g' a) (s_insts st')) /\
    forall n, In n (s_insts st') -> In n (s_insts st) \/
      (In n (map fst (s_structs st')) /\ exists f t g g', In (f, t) fs /\ mentions p g t /\ needs ds g g' /\ n = nm g' a).
Proof.
  intros HF Wp Ga. induction fs as [|[f t] fs IH]; intros st Fs I M.
  - exists st. cbn. split; auto. split; [now apply grown_refl|]. split; [apply incl_refl|]. split; [intros ? ? ? []|auto].
  - assert (Ft : field_type ds p t) by (apply (Fs f); now left).
    cbn [map copy_fields]. rewrite (text_ok ds p a t) by (auto; apply Ga).
    rewrite guess_text_ok, guess_formal_ok by (auto; apply Ga).
    set (o1 := match core t with SApp g _ => Some (g, a) | _ => None end).
    set (o2 := match t with SPtr (SApp g _) => Some (g, a) | _ => None end).
    assert (O1 : forall g x, o1 = Some (g, x) -> In g names /\ x = a).
    { intros g x E. unfold o1 in E. destruct (core t) as [| | |g0 t0] eqn:C; try discriminate. injection E as <- <-. split; auto.
      apply core_field in Ft. rewrite C in Ft. now inversion Ft. }
    assert (O12 : forall g x, o2 = Some (g, x) -> o1 = Some (g, x)).
    { intros g x E. unfold o2 in E. destruct t as [| |[| | |g0 t0]|]; try discriminate. exact E. }
    destruct (opt_ok F k a st o1 HF Ga I M O1) as (st1 & E1 & [I1 S1] & T1 & A1 & X1).
    destruct (opt_ok F k a st1 o2 HF Ga I1 ltac:(pose proof (missing_le st st1 a S1); lia) (fun g x E => O1 g x (O12 g x E)))
      as (st2 & E2 & [I2 S2] & T2 & A2 & X2).
    destruct (IH st2 (fun f0 t0 H => Fs f0 t0 (or_intror H)) I2
                ltac:(pose proof (missing_le st st1 a S1); pose proof (missing_le st1 st2 a S2); lia))
      as (st3 & E3 & [I3 S3] & T3 & A3 & X3).
    rewrite E1. cbn [bind]. rewrite E2. cbn [bind]. rewrite E3. cbn [bind].
    exists st3. split; [reflexivity|]. split; [split; auto; eapply incl_tran; [exact S1|]; eapply incl_tran; eauto|].
    split; [eapply incl_tran; [exact T1|]; eapply incl_tran; eauto|].
    assert (Mo : forall g x, o1 = Some (g, x) -> mentions p g t).
    { intros g x E. apply (mentions_core p t g Ft). unfold o1 in E. destruct (core t); try discriminate. injection E as -> _. eauto. }
    assert (Up : forall s1 s2 n, incl (s_structs s1) (s_structs s2) -> In n (map fst (s_structs s1)) -> In n (map fst (s_structs s2))).
    { intros s1 s2 n H J. apply in_map_iff in J as (y & <- & J). apply in_map. auto. }
    split.
    + intros f0 t0 g' [E|H] Mn.
      * injection E as <- <-. apply (mentions_core p t g' Ft) in Mn as [x C]. apply S3, S2, (A1 g' a). unfold o1. now rewrite C.
      * eapply A3; eauto.
    + intros n H. apply X3 in H as [H|(H & f0 & t0 & g & g' & H1 & H2 & H3 & ->)].
      2:{ right. split; auto. exists f0, t0, g, g'. split; [now right|auto]. }
      apply X2 in H as [H|(H & g & x & g' & H1 & H2 & ->)].
      2:{ right. split; [now apply (Up st2 st3)|]. exists f, t, g, g'. split; [now left|]. split; [now apply (Mo g x), O12|auto]. }
      apply X1 in H as [H|(H & g & x & g' & H1 & H2 & ->)]; auto.
      right. split; [apply (Up st2 st3); auto; apply (Up st1 st2); auto|]. exists f, t, g, g'. split; [now left|]. split; [now apply (Mo g x)|auto].
Qed.

Lemma inst_ok fuel : Spec (inst_generic fuel tpls) fuel.
Proof.
  induction fuel as [|fuel IH]; intros st g a I Hg Ga M; [lia|].
  destruct (names_word g Hg) as [Wg Lg]. cbn [inst_generic].
  rewrite (placeholder_good a Ga), mangled_nm by (auto; apply Ga). cbn [bind].
  destruct (existsb (beq_bytes (nm g a)) (s_insts st)) eqn:X.
  { apply existsb_beq in X. exists st. split; auto. split; [now apply grown_refl|]. split; auto. split; [apply incl_refl|auto]. }
  apply existsb_beq_false in X. destruct (find_names g Hg) as (p & fs & D & ->). cbn [tpl_of t_param t_fields].
  assert (Gd : word p /\ forall f t, In (f, t) fs -> field_type ds p t) by (apply Good in D; tauto).
  set (st0 := St (nm g a :: s_insts st) (s_structs st)).
  assert (I0 : Inv st0).
  { constructor; cbn [st0 s_structs s_insts].
    - intros n H. right. now apply (inv_sub st I).
    - intros n b H. destruct (inv_body st I n b H) as (g1 & p1 & fs1 & a1 & H1 & H2 & H3 & H4 & H5).
      exists g1, p1, fs1, a1. split; auto. split; auto. split; auto. split; auto. intros. right. eauto. }
  pose proof (missing_lt st a g Hg X) as ML. fold st0 in ML.
  destruct (copy_ok (inst_generic fuel tpls) fuel p a IH (proj1 Gd) Ga fs st0 (proj2 Gd) I0 ltac:(lia)) as (st1 & E & [I1 S1] & T1 & A1 & X1).
  rewrite E. cbn [bind]. eexists. split; [reflexivity|]. cbn [s_insts s_structs].
  assert (N0 : In (nm g a) (s_insts st1)) by (apply S1; now left).
  split; [split|].
  - constructor; cbn [s_structs s_insts map fst].
    + intros n [<-|H]; auto. now apply (inv_sub st1 I1).
    + intros n b [E0|H].
      * injection E0 as <- <-. exists g, p, fs, a. split; auto.
      * exact (inv_body st1 I1 n b H).
  - intros n H. apply S1. now right.
  - split; auto. split; [intros y H; right; now apply T1|].
    intros n H. apply X1 in H as [H|(H & f & t & g1 & g2 & H1 & H2 & H3 & ->)].
    + destruct H as [<-|H]; [|now left]. right. split; [now left|]. exists g. split; auto. constructor.
    + right. split; [now right|]. exists g2. split; auto. eapply needs_step; eauto.
Qed.

(** ** The uses *)
Definition good_use (u : bytes * sty) : Prop :=
  In (fst u) names /\ match snd u with SName n | SPrim n _ => good_arg n | _ => False end.
Lemma missing_all st a : missing st a <= length ds.
Proof. unfold missing. pose proof (map_length (fun d : tdecl => fst (fst d)) ds). fold names in H. rewrite <- H. clear. induction names as [|x l IH]; cbn; auto. destruct (negb _); cbn; lia. Qed.
Lemma uses_ok fuel us : length ds < fuel -> (forall u, In u us -> good_use u) -> forall st plain,
  Inv st -> (forall n, In n (s_insts st) -> In n (map fst (s_structs st))) ->
  exists st', run_items fuel (Prog tpls st plain) (map (fun '(g, a) => IUse (SApp g a)) us) = Ok (Prog tpls st' plain) /\ grown st st' /\
    (forall n, In n (s_insts st') -> In n (map fst (s_structs st'))) /\
    (forall g a, In (g, a) us -> In (nm g (arg_name a)) (s_insts st')) /\
    forall n, In n (s_insts st') -> In n (s_insts st) \/ exists g a g', In (g, a) us /\ needs ds g g' /\ n = nm g' (arg_name a).
Proof.
  intros Lf. induction us as [|[g a] us IH]; intros Gu st plain I Top.
  - exists st. cbn. split; auto. split; [now apply grown_refl|]. split; auto. split; [intros ? ? []|auto].
  - destruct (Gu (g, a) (or_introl eq_refl)) as [Hg Ha]. cbn [fst snd] in *.
    assert (Gn : good_arg (arg_name a) /\ forall fuel tpls st, exists f, read_type fuel tpls [] st a = Ok (st, f) /\ to_str f = arg_name a).
    { destruct a; try easy; cbn [arg_name read_type]; split; auto; intros; eexists; split; reflexivity. }
    destruct Gn as [Gn Rd]. destruct (Rd fuel tpls st) as (f & R1 & R2).
    cbn [map run_items run_item read_type p_tpls p_st p_plain]. rewrite R1. cbn [bind]. rewrite R2. cbn [existsb].
    destruct (inst_ok fuel st g (arg_name a) I Hg Gn ltac:(pose proof (missing_all st (arg_name a)); lia)) as (st1 & E & [I1 S1] & N1 & T1 & X1).
    rewrite E. cbn [bind]. rewrite mangled_nm by (try apply Gn; now apply names_word). cbn [bind].
    destruct (IH (fun u H => Gu u (or_intror H)) st1 plain I1) as (st' & E' & [I' S'] & Top' & A' & X').
    { intros n H. apply X1 in H as [H|[H _]]; auto. apply Top in H. apply in_map_iff in H as (y & <- & H). apply in_map. auto. }
    exists st'. split; [exact E'|]. split; [split; auto; eapply incl_tran; eauto|]. split; auto. split.
    + intros g0 a0 [Q|Q]; [injection Q as <- <-; auto|auto].
    + intros n H. apply X' in H as [H|(g1 & a1 & g2 & H1 & H2 & H3)].
      * apply X1 in H as [H|[_ (g' & H1 & H2)]]; auto. right. exists g, a, g'. split; [now left|auto].
      * right. exists g1, a1, g2. split; [now right|auto].
Qed.
Lemma closed st : Inv st -> (forall n, In n (s_insts st) -> In n (map fst (s_structs st))) ->
  forall g g' a, needs ds g g' -> In g names -> good_arg a -> In (nm g a) (s_insts st) -> In (nm g' a) (s_insts st).
Proof.
  intros I Top g g' a N. induction N as [|g p fs f t g1 g2 D Ht Mt N IH]; intros Hg Ga H; auto.
  assert (Gd : word p /\ forall f t, In (f, t) fs -> field_type ds p t) by (apply Good in D; tauto).
  assert (Hg1 : In g1 names) by (eapply mentions_names; [|exact Mt]; eapply Gd; eauto).
  apply IH; auto. apply Top in H. apply in_map_iff in H as ([n b] & E & H). cbn in E. subst n.
  destruct (inv_body st I _ _ H) as (g0 & p0 & fs0 & a0 & D0 & Ga0 & E0 & _ & X).
  assert (Hg0 : In g0 names) by (apply in_map_iff; exists (g0, p0, fs0); auto).
  apply nm_inj in E0 as [<- <-]; try (now apply names_word); try apply Ga; try apply Ga0.
  assert (Q := decl_unique _ _ _ _ _ D D0). injection Q as <- <-. eapply X; eauto.
Qed.
End Region.

(** ** The declarations *)
Lemma read_field_ok ds p t fuel tpls st : word p -> length p < 100 -> (forall g, In g (names ds) -> length g < 100) -> field_type ds p t ->
  read_type fuel tpls [p] st t = Ok (st, formal t).
Proof.
  intros Wp Lp Lg F. induction F as [| | |t F IH|g Hg]; cbn [read_type formal]; auto.
  - now rewrite IH.
  - cbn [bind to_str existsb]. rewrite beq_bytes_refl. cbn [orb bind].
    rewrite (mangled_nm g p) by auto. cbn [bind]. rewrite sanitize_word by auto. reflexivity.
Qed.
Lemma decls_ok fuel ds all : (forall d, In d ds -> In d all) -> good_decls all -> forall tpls st plain,
  run_items fuel (Prog tpls st plain) (map decl ds) = Ok (Prog (rev (map tpl_of ds) ++ tpls) st plain).
Proof.
  intros Sub Gd. induction ds as [|[[n p] fs] ds IH]; intros tpls st plain; [reflexivity|].
  cbn [map decl run_items run_item p_tpls p_st p_plain].
  assert (D : In (n, p, fs) all) by (apply Sub; now left). apply (proj2 Gd) in D as (Wn & Wp & Ln & Lp & Ff).
  assert (R : read_fields fuel tpls [p] st fs = Ok (st, map (fun '(f, t) => (f, formal t)) fs)).
  { clear -Gd Wp Lp Ff. induction fs as [|[f t] fs IH]; cbn [read_fields map]; auto.
    rewrite (read_field_ok all p t fuel tpls st Wp Lp (fun g Hg => proj2 (names_word all Gd g Hg)) (Ff f t (or_introl eq_refl))).
    cbn [bind]. rewrite IH by (intros f0 t0 H; apply (Ff f0); now right). reflexivity. }
  rewrite R. cbn [bind]. rewrite IH by (intros d H; apply Sub; now right). cbn [rev map tpl_of]. now rewrite <- app_assoc.
Qed.
Lemma run_app fuel l l' : forall pr pr', run_items fuel pr l = Ok pr' -> run_items fuel pr (l ++ l') = run_items fuel pr' l'.
Proof.
  induction l as [|i l IH]; cbn [run_items app]; intros pr pr' E; [now injection E as <-|].
  destruct (run_item fuel pr i); cbn [bind] in *; try discriminate. now apply IH.
Qed.

Theorem instances ds us fuel : good_decls ds -> (forall u, In u us -> good_use ds u) -> length ds < fuel ->
  exists out, compile fuel (map decl ds ++ map (fun '(g, a) => IUse (SApp g a)) us) = Ok out /\
    NoDup (map fst out) /\
    (forall n, In n (map fst out) <-> exists g a g', In (g, a) us /\ needs ds g g' /\ n = g' ++ 95%N :: arg_name a) /\
    (forall g p fs a b, In (g, p, fs) ds -> good_arg a -> In (g ++ 95%N :: a, b) out -> b = body p a fs).
Proof.
  intros Gd Gu Lf. unfold compile.
  set (tpls := rev (map tpl_of ds) ++ []).
  assert (Ht : forall t, In t tpls <-> exists d, In d ds /\ t = tpl_of d).
  { intros t. unfold tpls. rewrite app_nil_r, <- in_rev, in_map_iff. split; intros (d & H1 & H2); eauto. }
  assert (I0 : Inv ds (St [] [])) by (constructor; cbn; easy).
  destruct (uses_ok ds Gd tpls Ht fuel us Lf Gu (St [] []) [] I0 ltac:(cbn; easy)) as (st & E & [I S1] & Top & A & X).
  assert (R : run_items fuel (Prog [] (St [] []) []) (map decl ds ++ map (fun '(g, a) => IUse (SApp g a)) us) = Ok (Prog tpls st [])).
  { erewrite run_app; [exact E|]. now apply (decls_ok fuel ds ds). }
  rewrite R. cbn [bind output p_st p_plain]. unfold output. cbn [p_st p_plain]. rewrite app_nil_r.
  exists (s_structs st). split; [reflexivity|]. split; [exact (once _ _ _ R)|]. split.
  - intros n. split.
    + intros H. apply (inv_sub ds st I) in H. apply X in H as [[]|H]. exact H.
    + intros (g & a & g' & H1 & H2 & ->). apply Top. destruct (Gu _ H1) as [Hg Ha]. cbn [fst snd] in *.
      assert (Ga : good_arg (arg_name a)) by (destruct a; easy).
      exact (closed ds Gd st I Top g g' (arg_name a) H2 Hg Ga (A g a H1)).
  - intros g p fs a b D Ga H. destruct (inv_body ds st I _ _ H) as (g0 & p0 & fs0 & a0 & D0 & Ga0 & E0 & -> & _).
    change (g ++ 95%N :: a) with (nm g a) in E0.
    assert (Wg : word g) by (apply (names_word ds Gd); apply in_map_iff; exists (g, p, fs); auto).
    assert (Wg0 : word g0) by (apply (names_word ds Gd); apply in_map_iff; exists (g0, p0, fs0); auto).
    apply nm_inj in E0 as [<- <-]; auto; try apply Ga; try apply Ga0.
    assert (Q := decl_unique ds Gd _ _ _ _ _ D D0). now injection Q as <- <-.
Qed.

(** ** What goes wrong *)
Lemma underscore g h x y f fuel : word g -> word h -> g <> h -> word x -> word y -> length g < 50 -> length h < 50 -> length x < 50 -> length y < 50 ->
  forall p, word p -> length p < 50 -> compile (S (S fuel)) [ITemplate g p []; ITemplate h p [(f, SApp g (SName p))]; IUse (SApp h (SName (x ++ bs "_" ++ y)))] =
    Ok [(h ++ bs "_" ++ x ++ bs "_" ++ y, [(f, g ++ bs "_" ++ x ++ bs "_" ++ y)])].
Proof.
  intros Wg Wh D Wx Wy Lg Lh Lx Ly p Wp Lp.
  set (a := x ++ bs "_" ++ y).
  assert (La : length a < 150) by (unfold a; rewrite !app_length; cbn [length bs]; cbn; lia).
  assert (Sa : sanitize a = a).
  { unfold sanitize. rewrite not_struct.
    - unfold a. rewrite !flat_map_app.
      assert (C : forall n, word n -> flat_map clean_char n = n).
      { intros n Wn. rewrite <- (sanitize_word n Wn) at 2. unfold sanitize. rewrite not_struct; auto. apply word_no; auto. }
      rewrite (C x Wx), (C y Wy). reflexivity.
    - unfold a. intros X. apply in_app_or in X as [X|X]; [now apply (word_no 32%N x Wx) in X; auto|].
      destruct X as [X|X]; [discriminate|]. now apply (word_no 32%N y Wy) in X; auto. }
  assert (Ma : forall n : bytes, length n < 50 -> mangled n (@cons bytes a nil) = Ok (nm n a)).
  { intros n Ln. unfold mangled. cbn [flat_map]. rewrite app_nil_r, Sa. fold (nm n a).
    assert (L : length (nm n a) < 256) by (unfold nm; rewrite app_length; cbn [length]; lia).
    apply Nat.ltb_lt in L. now rewrite L. }
  assert (Pa : placeholder a = false).
  { unfold a. destruct x as [|c x]; [now destruct Wx|]. destruct x; reflexivity. }
  unfold compile. cbn [run_items run_item read_fields bind p_tpls p_st p_plain read_type to_str existsb].
  rewrite beq_bytes_refl. cbn [orb bind].
  rewrite (mangled_nm g p) by (auto; lia). cbn [bind p_tpls p_st p_plain run_items run_item read_type to_str existsb].
  remember (S fuel) as f1. cbn [inst_generic]. rewrite Pa, (Ma h Lh). cbn [bind existsb s_insts find_template find t_name].
  unfold find_template. cbn [find t_name]. rewrite beq_bytes_refl. cbn [t_param t_fields copy_fields to_c].
  assert (T : replace_str (length (nm g p)) (nm g p) p a = nm g a).
  { destruct (length (nm g p)); cbn [replace_str]; unfold nm;
    rewrite beq_false, ends_with_app, strip_app, Sa; auto;
      intros E; apply (word_no 95%N p Wp); auto; rewrite <- E; apply in_or_app; right; now left. }
  rewrite T.
  assert (G1 : forall l, (forall t, In t l -> word (t_name t)) -> guess_text l (nm g a) = None).
  { intros l Wl. unfold guess_text, nm.
    replace (g ++ 95%N :: a) with ((g ++ 95%N :: x) ++ 95%N :: y) by (unfold a; rewrite <- app_assoc; reflexivity).
    assert (R : rsplit ((g ++ 95%N :: x) ++ 95%N :: y) = Some (g ++ 95%N :: x, y)) by (apply rsplit_app, word_no; auto).
    rewrite R. destruct (g ++ 95%N :: x) as [|c r] eqn:Eg; auto. rewrite <- Eg in *.
    replace (before_star ((g ++ 95%N :: x) ++ 95%N :: y)) with ((g ++ 95%N :: x) ++ 95%N :: y).
    2:{ symmetry. rewrite <- (app_nil_r ((g ++ 95%N :: x) ++ 95%N :: y)) at 1. apply (before_star_app _ 0).
        intros X. repeat (apply in_app_or in X as [X|X] || destruct X as [X|X]); try discriminate;
        [apply (word_no 42%N g Wg) in X|apply (word_no 42%N x Wx) in X|apply (word_no 42%N y Wy) in X]; auto. }
    rewrite R. destruct (find_template l (g ++ 95%N :: x)) as [t|] eqn:E; auto.
    unfold find_template in E. apply find_some in E as [E1 E2]. apply beq_bytes_true in E2. apply Wl in E1.
    exfalso. apply (word_no 95%N _ E1); auto. rewrite E2. apply in_or_app. right. now left. }
  rewrite G1.
  2:{ intros t [<-|[<-|[]]]; auto. }
  cbn [opt_inst bind].
  assert (G2 : forall l n, guess_formal l (replace_formal (FName (nm g p)) n a) = None \/ n <> p).
  { intros l n. destruct (beq_bytes_spec n p) as [->|]; auto. left. cbn [replace_formal]. unfold nm. rewrite ends_with_app, beq_false; [reflexivity|].
    intros E; apply (word_no 95%N p Wp); auto; rewrite <- E; apply in_or_app; right; now left. }
  destruct (G2 [Template h p [(f, FName (nm g p))]; Template g p []] p) as [->|]; [|congruence].
  reflexivity.
Qed.
Lemma capital c g p f s fuel : (65 <= c <= 90)%N -> word g -> length g < 50 ->
  compile (S fuel) [ITemplate g p [(f, SName p)]; IStruct [c] []; IStruct s [(f, SApp g (SName [c]))]] =
    Ok [(s, [(f, g ++ bs "_" ++ [c])]); ([c], [])].
Proof.
  intros Hc Wg Lg. unfold compile. cbn [run_items run_item read_fields bind p_tpls p_st p_plain read_type to_str existsb map].
  cbn [inst_generic placeholder]. destruct (N.leb_spec 65 c), (N.leb_spec c 90); try lia. cbn [andb bind].
  rewrite (mangled_nm g [c]); [reflexivity| |lia|cbn; lia]. split; [discriminate|]. constructor; [lia|constructor].
Qed.
Lemma self_panic g p f a fuel : word a -> a <> p -> placeholder a = false -> length g < 100 -> length a < 100 ->
  compile (S fuel) [ITemplate g p [(f, SPtr (SApp g (SName a)))]] = Panic.
Proof.
  intros Wa D P L1 L2. unfold compile. cbn [run_items run_item read_fields read_type bind p_tpls p_st to_str existsb].
  rewrite beq_false by auto. cbn [orb inst_generic]. rewrite P, mangled_nm by auto. reflexivity.
Qed.
