From Verif Require Import Common Lexer_Model IntLit_Model IntLit_Spec IntLit_Proofs Url_Model Match_Model Match_Spec.
Local Open Scope N_scope.

(** ** Text *)
Definition nobar (b : bytes) : Prop := Forall (fun c => c <> 124) b.
(** No two dots in a row and no dot at the end *)
Inductive nd : bytes -> Prop :=
| nd_nil : nd []
| nd_one c l : c <> 46 -> nd l -> nd (c :: l)
| nd_dot c l : c <> 46 -> nd l -> nd (46 :: c :: l).

Lemma is_prefix_spec p : forall b, is_prefix p b = true <-> exists r, b = p ++ r.
Proof.
  induction p as [|x p IH]; intros b; cbn.
  - split; [now exists b|reflexivity].
  - destruct b as [|y b]; [split; [discriminate|now intros (r & E)]|]. rewrite andb_true_iff, N.eqb_eq, IH. split.
    + intros (-> & r & ->). now exists r.
    + intros (r & E). injection E as -> ->. split; [reflexivity|now exists r].
Qed.
Lemma strstr_nd p a : nd a -> forall b r, strstr (46 :: 46 :: p) b = r ->
  strstr (46 :: 46 :: p) (a ++ b) = option_map (Nat.add (length a)) r.
Proof.
  intros D. induction D as [|c l H D IH|c l H D IH]; intros b r E; cbn [app length].
  - rewrite E. now destruct r.
  - cbn [strstr]. replace (is_prefix (46 :: 46 :: p) (c :: l ++ b)) with false.
    + rewrite (IH b r E). now destruct r.
    + symmetry. cbn [is_prefix]. destruct (N.eqb_spec 46 c); [congruence|reflexivity].
  - cbn [strstr]. replace (is_prefix (46 :: 46 :: p) (46 :: c :: l ++ b)) with false.
    2:{ symmetry. cbn [is_prefix]. destruct (N.eqb_spec 46 c); [congruence|]. now rewrite andb_false_r. }
    replace (is_prefix (46 :: 46 :: p) (c :: l ++ b)) with false.
    2:{ symmetry. cbn [is_prefix]. destruct (N.eqb_spec 46 c); [congruence|reflexivity]. }
    rewrite (IH b r E). now destruct r.
Qed.
Lemma strstr_nd0 p a : nd a -> strstr (46 :: 46 :: p) a = None.
Proof. intros D. rewrite <- (app_nil_r a). exact (strstr_nd p a D [] None eq_refl). Qed.
Lemma nd_app a b : nd a -> nd b -> nd (a ++ b).
Proof. intros A B. induction A; cbn; auto using nd. Qed.
Lemma nd_nodot a : Forall (fun c => c <> 46) a -> nd a.
Proof. induction 1; auto using nd. Qed.
Lemma nd_str s : (forall a b, s <> a ++ bs ".." ++ b) -> nd (s ++ [34]).
Proof.
  assert (G : forall n s, (length s < n)%nat -> (forall a b, s <> a ++ bs ".." ++ b) -> nd (s ++ [34])).
  { clear. induction n as [|n IH]; intros s L H; [lia|]. destruct s as [|c s]; [repeat constructor; discriminate|].
    destruct (N.eq_dec c 46) as [->|N0].
    - destruct s as [|d s]; [apply (nd_dot 34 []); [discriminate|constructor]|].
      destruct (N.eq_dec d 46) as [->|N1]; [now destruct (H [] s)|].
      cbn [app]. apply nd_dot; [exact N1|]. apply IH; [cbn in L; lia|]. intros a b ->. now apply (H (46 :: d :: a) b).
    - cbn [app]. apply nd_one; [exact N0|]. apply IH; [cbn in L; lia|]. intros a b ->. now apply (H (c :: a) b). }
  apply (G (S (length s))). lia.
Qed.

(** ** Alternatives *)
Lemma split_nobar a : nobar a -> split_bar a = (a, []).
Proof. induction 1 as [|c a N F IH]; cbn; [reflexivity|]. rewrite IH. destruct (N.eqb_spec c 124); [contradiction|reflexivity]. Qed.
Lemma split_app a b : nobar a -> split_bar (a ++ 124 :: b) = (a, fst (split_bar b) :: snd (split_bar b)).
Proof.
  induction 1 as [|c a N F IH]; cbn.
  - destruct (split_bar b). reflexivity.
  - rewrite IH. destruct (N.eqb_spec c 124); [contradiction|reflexivity].
Qed.
Lemma split_join ts : forall t, nobar t -> Forall nobar ts -> split_bar (join (bs "|") (t :: ts)) = (t, ts).
Proof.
  induction ts as [|u ts IH]; intros t N F.
  - cbn [join]. now apply split_nobar.
  - inversion F as [|? ? Nu Fu]; subst. change (join (bs "|") (t :: u :: ts)) with (t ++ 124 :: join (bs "|") (u :: ts)).
    rewrite split_app by exact N. now rewrite IH.
Qed.
Lemma filter_all {A} (p : A -> bool) l : Forall (fun x => p x = true) l -> filter p l = l.
Proof. induction 1 as [|x l E F IH]; cbn; [reflexivity|]. now rewrite E, IH. Qed.
Lemma parts_join t ts : Forall nobar (t :: ts) -> Forall (fun b => b <> []) (t :: ts) -> parts (join (bs "|") (t :: ts)) = t :: ts.
Proof.
  intros N E. unfold parts. inversion N; subst. rewrite split_join by assumption. apply filter_all.
  eapply Forall_impl; [|exact E]. intros [|]; easy.
Qed.
Lemma bar_in t u ts : In 124 (join (bs "|") (t :: u :: ts)).
Proof. change (join (bs "|") (t :: u :: ts)) with (t ++ bs "|" ++ join (bs "|") (u :: ts)). apply in_app_iff. right. now left. Qed.

(** ** Enums *)
Definition names (enums : list (bytes * list bytes)) : list bytes := concat (map (fun e => map (fun v => fst e ++ bs "_" ++ v) (snd e)) enums).
Lemma variants_names e vs : forall tag, map fst (variants_from e tag vs) = map (fun v => e ++ bs "_" ++ v) vs.
Proof. induction vs as [|v vs IH]; intros tag; cbn [variants_from map]; [reflexivity|]. now rewrite IH. Qed.
Lemma register_names enums : map fst (register enums) = rev (names enums).
Proof.
  unfold register, names. rewrite map_rev. f_equal. rewrite concat_map, map_map. f_equal. apply map_ext. intros e. apply variants_names.
Qed.
Lemma find_in reg : NoDup (map fst reg) -> forall n t, In (n, t) reg -> find_variant reg n = Some t.
Proof.
  induction reg as [|[m u] reg IH]; intros ND n t I; [easy|]. inversion ND as [|? ? NI ND']; subst. cbn.
  destruct (beq_bytes_spec m n) as [->|N].
  - destruct I as [E|I]; [congruence|]. destruct NI. cbn. apply (in_map fst) in I. exact I.
  - destruct I as [E|I]; [congruence|]. now apply IH.
Qed.
Lemma find_none reg p : ~ In p (map fst reg) -> find_variant reg p = None.
Proof.
  induction reg as [|[m u] reg IH]; cbn; intros H; [reflexivity|]. destruct (beq_bytes_spec m p) as [->|N]; [tauto|]. apply IH. tauto.
Qed.
Lemma in_variants e v vs : forall tag k, position v vs = Some k -> In (e ++ bs "_" ++ v, (tag + k)%Z) (variants_from e tag vs).
Proof.
  induction vs as [|w vs IH]; intros tag k P; cbn [position] in P; [discriminate|]. cbn [variants_from].
  destruct (beq_bytes_spec v w) as [->|N].
  - injection P as <-. left. f_equal. lia.
  - destruct (position v vs) as [k'|]; [|discriminate]. cbn [option_map] in P. assert (k = 1 + k')%Z as -> by congruence. right.
    replace (tag + (1 + k'))%Z with ((tag + 1) + k')%Z by lia. now apply IH.
Qed.
Lemma position_in v vs : In v vs -> exists k, position v vs = Some k.
Proof.
  induction vs as [|w vs IH]; intros I; [easy|]. cbn. destruct (beq_bytes_spec v w); [eauto|].
  destruct I as [->|I]; [congruence|]. destruct (IH I) as (k & ->). cbn. eauto.
Qed.
Lemma position_nonneg vs : forall x j, position x vs = Some j -> (0 <= j)%Z.
Proof.
  induction vs as [|u vs IH]; intros x j; cbn [position]; [discriminate|]. destruct (beq_bytes x u); [intros [= <-]; lia|].
  destruct (position x vs) eqn:E; [|discriminate]. cbn [option_map]. specialize (IH _ _ E). intros X. assert (j = 1 + z)%Z as -> by congruence. lia.
Qed.
Lemma position_inj v w vs : forall k, position v vs = Some k -> position w vs = Some k -> v = w.
Proof.
  induction vs as [|u vs IH]; intros k A B; cbn [position] in *; [discriminate|].
  destruct (beq_bytes_spec v u) as [->|N]; destruct (beq_bytes_spec w u) as [->|N']; auto.
  - destruct (position w vs) eqn:E; [|discriminate]. apply position_nonneg in E. cbn [option_map] in B. assert (k = 0)%Z by congruence. assert (k = 1 + z)%Z by congruence. lia.
  - destruct (position v vs) eqn:E; [|discriminate]. apply position_nonneg in E. cbn [option_map] in A. assert (k = 0)%Z by congruence. assert (k = 1 + z)%Z by congruence. lia.
  - destruct (position v vs) eqn:E; [|discriminate]. destruct (position w vs) eqn:E'; [|discriminate]. cbn [option_map] in *.
    assert (k = 1 + z)%Z by congruence. assert (k = 1 + z0)%Z by congruence. apply (IH z); auto. f_equal. lia.
Qed.

Lemma ident_facts b : ident b -> b <> [] /\ nobar b /\ nd b /\ Forall (fun c => c <> 34) b /\ match b with c :: _ => is_ident_start c = true | [] => False end.
Proof.
  destruct b as [|c b]; [easy|]. intros [S F]. splits; [discriminate|..]; auto.
  2: apply nd_nodot.
  all: eapply Forall_impl; [|exact F]; intros x I ->; vm_compute in I; discriminate.
Qed.
Lemma names_start enums b : plain_enums enums -> In b (names enums) -> match b with c :: _ => is_ident_start c = true | [] => False end.
Proof.
  intros (F & _ & _) I. unfold names in I. apply in_concat in I as (l & I & J). apply in_map_iff in I as ((t, vs) & <- & I).
  rewrite Forall_forall in F. destruct (F _ I) as [It _]. apply in_map_iff in J as (v & <- & _). cbn [fst] in *.
  apply ident_facts in It as (_ & _ & _ & _ & S). destruct t; [easy|exact S].
Qed.
Lemma variant_found enums t v vs k : plain_enums enums -> In (t, vs) enums -> position v vs = Some k ->
  find_variant (register enums) (t ++ bs "_" ++ v) = Some k.
Proof.
  intros (F & N1 & N2) I P. apply find_in.
  - rewrite register_names. now apply NoDup_rev.
  - unfold register. apply in_rev. rewrite rev_involutive. apply in_concat. exists (variants_from t 0 vs). split.
    + apply in_map_iff. now exists (t, vs).
    + exact (in_variants t v vs 0 k P).
Qed.
Lemma not_found enums b : plain_enums enums -> match b with c :: _ => is_ident_start c = false | [] => True end -> find_variant (register enums) b = None.
Proof.
  intros P H. apply find_none. rewrite register_names. intros I. apply in_rev in I. apply (names_start _ _ P) in I.
  destruct b; [easy|congruence].
Qed.

(** ** Constants *)
Lemma digits_ok base ds v : numeral base ds v -> v < 2 ^ 63 -> digits base ds = Some (Z.of_N v).
Proof.
  intros Nm L. destruct (numeral_in _ _ _ Nm) as (N0 & A & _). assert (Fo := numeral_fold _ _ _ Nm).
  assert (Ac : accumulate base 0 ds = v).
  { rewrite <- (app_nil_r ds), accumulate_app by exact A. cbn. exact Fo. }
  unfold digits. destruct ds; [congruence|]. rewrite Ac.
  replace (forallb (in_base base) (n :: ds)) with true.
  - destruct (N.ltb_spec v (2 ^ 63)); [reflexivity|lia].
  - symmetry. apply forallb_forall. unfold all_in in A. now rewrite Forall_forall in A.
Qed.
Lemma digit_char base c v : base <= 16 -> digit base c v -> 48 <= c <= 57 \/ 65 <= c <= 70 \/ 97 <= c <= 102.
Proof. intros B D. destruct D; lia. Qed.
Lemma numeral_chars base ds v : base <= 16 -> numeral base ds v -> Forall (fun c => 48 <= c <= 57 \/ 65 <= c <= 70 \/ 97 <= c <= 102) ds.
Proof.
  intros B. induction 1 as [c v D|ds v c w _ IH D].
  - constructor; [eapply digit_char; eauto|constructor].
  - apply Forall_app. split; [exact IH|]. constructor; [eapply digit_char; eauto|constructor].
Qed.
Lemma dec_chars ds v : numeral 10 ds v -> Forall (fun c => 48 <= c <= 57) ds.
Proof.
  induction 1 as [c v D|ds v c w _ IH D].
  - constructor; [destruct D; lia|constructor].
  - apply Forall_app. split; [exact IH|]. constructor; [destruct D; lia|constructor].
Qed.

Lemma denotes_inj lit a b : denotes lit a -> denotes lit b -> a < 2 ^ 63 -> a = b.
Proof.
  intros A B L. apply denotes_parse in A. apply denotes_parse in B. rewrite A in B. injection B as B. lia.
Qed.
Lemma start_digit c : 48 <= c <= 57 -> is_ident_start c = false.
Proof.
  intros H. unfold is_ident_start, isalpha.
  destruct (N.leb_spec 97 c), (N.leb_spec c 122), (N.leb_spec 65 c), (N.leb_spec c 90), (N.eqb_spec c 95); try reflexivity; lia.
Qed.

Lemma atom_ok a : plain_atom a -> exists z, c_const (atom_text a) = Some z /\ (forall y, means a y <-> y = z) /\
  nobar (atom_text a) /\ nd (atom_text a) /\
  match atom_text a with c :: _ => 48 <= c <= 57 \/ c = 39 | [] => False end.
Proof.
  destruct a as [lit|c]; cbn [plain_atom atom_text].
  - intros (n & L & H). exists (Z.of_N n).
    assert (D : denotes lit n).
    { destruct H as [(c & ds & -> & Nm & _)|[(p & ds & -> & Ip & Nm)|(p & ds & -> & Ip & Nm)]].
      - rewrite <- (app_nil_r (c :: ds)). exact (Den [] 10 (c :: ds) [] n P_dec Nm (or_introl eq_refl)).
      - rewrite <- (app_nil_r ds). exact (Den p 16 ds [] n (P_hex p Ip) Nm (or_introl eq_refl)).
      - rewrite <- (app_nil_r ds). exact (Den p 2 ds [] n (P_bin p Ip) Nm (or_introl eq_refl)). }
    split; [|split].
    + destruct H as [(c & ds & -> & Nm & Z0)|[(p & ds & -> & Ip & Nm)|(p & ds & -> & Ip & Nm)]].
      * assert (F := dec_chars _ _ Nm). inversion F as [|? ? Hc Fd]; subst. unfold c_const.
        destruct (N.eqb_spec c 39); [lia|]. destruct (N.eqb_spec c 48) as [->|N0]; [|now apply digits_ok].
        destruct ds as [|d ds]; [|destruct Z0; [discriminate|reflexivity]].
        f_equal. inversion Nm as [? ? Dg|ds0 ? ? ? Nm0 ? E]; subst.
        -- apply digit_in in Dg as (V & _). vm_compute in V. now subst.
        -- destruct (numeral_in _ _ _ Nm0) as (X & _). destruct ds0; [congruence|]. destruct ds0; discriminate.
      * destruct Ip as [<-|[<-|[]]]; cbn; now apply digits_ok.
      * destruct Ip as [<-|[<-|[]]]; cbn; now apply digits_ok.
    + intros y. cbn [means]. split; [|intros ->; now exists n]. intros (m & Dm & ->). f_equal. symmetry. eapply denotes_inj; eauto.
    + assert (F : Forall (fun c => 48 <= c <= 57 \/ 65 <= c <= 90 \/ 97 <= c <= 122) lit /\ match lit with c :: _ => 48 <= c <= 57 | [] => False end).
      { destruct H as [(c & ds & -> & Nm & _)|[(p & ds & -> & Ip & Nm)|(p & ds & -> & Ip & Nm)]].
        - apply dec_chars in Nm. split; [eapply Forall_impl; [|exact Nm]; intros x X; cbn beta in *; lia|]. now inversion Nm.
        - apply numeral_chars in Nm; [|lia]. split; [|now destruct Ip as [<-|[<-|[]]]].
          apply Forall_app. split; [destruct Ip as [<-|[<-|[]]]; repeat constructor; cbn; lia|].
          eapply Forall_impl; [|exact Nm]. intros x X; cbn beta in *; lia.
        - apply numeral_chars in Nm; [|lia]. split; [|now destruct Ip as [<-|[<-|[]]]].
          apply Forall_app. split; [destruct Ip as [<-|[<-|[]]]; repeat constructor; cbn; lia|].
          eapply Forall_impl; [|exact Nm]. intros x X; cbn beta in *; lia. }
      destruct F as [F Hd]. splits.
      * eapply Forall_impl; [|exact F]. intros x X; cbn beta in *; lia.
      * apply nd_nodot. eapply Forall_impl; [|exact F]. intros x X; cbn beta in *; lia.
      * destruct lit as [|c lit]; [easy|]. now left.
  - intros (L & H). exists (Z.of_N c). cbn [In] in H. splits.
    + cbn. destruct (N.eqb_spec c 39); [lia|]. destruct (N.eqb_spec c 92); [lia|]. destruct (N.ltb_spec c 128); [reflexivity|lia].
    + reflexivity.
    + repeat constructor; lia.
    + apply nd_one; [lia|]. destruct (N.eq_dec c 46) as [->|N0]; [apply nd_dot; [lia|constructor]|]. repeat (apply nd_one; [lia|]). constructor.
    + now right.
Qed.

Lemma beq_refl b : beq_bytes b b = true.
Proof. now destruct (beq_bytes_spec b b). Qed.
Lemma start_atom c : 48 <= c <= 57 \/ c = 39 -> is_ident_start c = false /\ c <> 34 /\ c <> 46 /\ c <> 61 /\ c <> 95.
Proof. intros [H| ->]; [|now vm_compute]. splits; [now apply start_digit|lia..]. Qed.
Lemma c_string_ok s : Forall (fun c => ~ In c [34; 92; 10; 124; 0]) s -> c_string (34 :: s ++ [34]) = Some s.
Proof.
  intros F. unfold c_string. rewrite rev_app_distr. cbn [rev app]. rewrite removelast_last.
  replace (forallb (fun c => negb (c =? 34) && negb (c =? 92) && negb (c =? 10)) (rev s)) with true; [reflexivity|].
  symmetry. apply forallb_forall. intros c I. apply in_rev in I. rewrite Forall_forall in F. specialize (F c I). cbn [In] in F.
  destruct (N.eqb_spec c 34), (N.eqb_spec c 92), (N.eqb_spec c 10); try reflexivity; destruct F; lia.
Qed.

Lemma pat_ok enums s tname v p : plain_enums enums -> represents enums s tname v -> plain_pat enums s p ->
  let t := alt_text (pat_alt p) in
  exists b, eval v (one_cond (register enums) t) = Some b /\ (b = true <-> fits s p) /\ nobar t /\ t <> [] /\ t <> bs "_".
Proof.
  intros PE R PP t. subst t.
  destruct s as [z|str|ty x], v as [z'|str'|k]; try contradiction R; cbn [represents] in R.
  - destruct R as [<- _]. destruct p as [a|a incl b| |]; try contradiction PP; cbn [plain_pat] in PP.
    + destruct (atom_ok a PP) as (y & C & M & NB & ND & ST). cbn [pat_alt]. unfold alt_text. cbn [path upto join]. rewrite app_nil_r.
      destruct (atom_text a) as [|c t] eqn:ET; [easy|]. destruct (start_atom c ST) as (S1 & S2 & S3 & S4 & S5).
      exists (z =? y)%Z. splits; auto; try discriminate.
      * unfold one_cond. rewrite (not_found enums (c :: t) PE S1). unfold single_cond.
        change (bs "..=") with [46; 46; 61]. change (bs "..") with [46; 46]. rewrite !strstr_nd0 by exact ND.
        destruct (N.eqb_spec c 34); [congruence|]. cbn [eval]. now rewrite C.
      * cbn [fits]. rewrite M, Z.eqb_eq. reflexivity.
      * change (bs "_") with [95]. congruence.
    + destruct PP as [Pa Pb]. destruct (atom_ok a Pa) as (y & C & M & NB & ND & ST). destruct (atom_ok b Pb) as (y' & C' & M' & NB' & ND' & ST').
      cbn [pat_alt]. unfold alt_text. cbn [path upto join].
      destruct (atom_text a) as [|c t] eqn:ET; [easy|]. destruct (start_atom c ST) as (S1 & S2 & S3 & S4 & S5).
      destruct (atom_text b) as [|c' t'] eqn:ET'; [easy|]. destruct (start_atom c' ST') as (T1 & T2 & T3 & T4 & T5).
      exists ((y <=? z)%Z && (if incl then (z <=? y')%Z else (z <? y')%Z)). splits.
      * unfold one_cond. rewrite (not_found enums ((c :: t) ++ _) PE S1). unfold single_cond.
        change (bs "..=") with [46; 46; 61]. change (bs "..") with [46; 46].
        destruct incl.
        -- rewrite (strstr_nd [61] (c :: t) ND ([46; 46; 61] ++ c' :: t') (Some 0%nat) eq_refl). cbn [option_map]. rewrite Nat.add_0_r.
           rewrite firstn_app, firstn_all, Nat.sub_diag, app_nil_r. rewrite <- skipn_skipn', skipn_app, skipn_all, Nat.sub_diag. cbn [app skipn].
           cbn [eval]. now rewrite C, C'.
        -- assert (Q : strstr [46; 46; 61] ([46; 46] ++ c' :: t') = None).
           { cbn [app strstr is_prefix]. destruct (N.eqb_spec 61 c'); [congruence|]. destruct (N.eqb_spec 46 c'); [congruence|].
             assert (nd t') by (inversion ND'; subst; [assumption|congruence]). rewrite strstr_nd0 by assumption. reflexivity. }
           rewrite (strstr_nd [61] (c :: t) ND ([46; 46] ++ c' :: t') None Q). cbn [option_map].
           rewrite (strstr_nd [] (c :: t) ND ([46; 46] ++ c' :: t') (Some 0%nat) eq_refl). cbn [option_map]. rewrite Nat.add_0_r.
           rewrite firstn_app, firstn_all, Nat.sub_diag, app_nil_r. rewrite <- skipn_skipn', skipn_app, skipn_all, Nat.sub_diag. cbn [app skipn].
           cbn [eval]. now rewrite C, C'.
      * cbn [fits]. rewrite andb_true_iff, Z.leb_le. split.
        -- intros [A B]. exists y, y'. rewrite M, M'. splits; auto. destruct incl; lia.
        -- intros (u & w & Mu & Mw & A & B). apply M in Mu. apply M' in Mw. subst. split; [exact A|]. destruct incl; lia.
      * unfold nobar. rewrite !Forall_app. splits; [exact NB| |exact NB']. destruct incl; repeat constructor; discriminate.
      * discriminate.
      * change (bs "_") with [95]. cbn [app]. congruence.
  - destruct R as [<- _]. destruct p as [|  |s|]; try contradiction PP; cbn [plain_pat] in PP. destruct PP as [F H].
    cbn [pat_alt]. unfold alt_text. cbn [path upto join]. rewrite app_nil_r. exists (beq_bytes str s). splits; try discriminate.
    + unfold one_cond. rewrite not_found by (auto; reflexivity). unfold single_cond.
      change (bs "..=") with [46; 46; 61]. change (bs "..") with [46; 46].
      assert (ND : nd (34 :: s ++ [34])) by (apply nd_one; [discriminate|now apply nd_str]). rewrite !strstr_nd0 by exact ND.
      rewrite N.eqb_refl. unfold eval. now rewrite c_string_ok.
    + cbn [fits]. destruct (beq_bytes_spec str s); split; congruence.
    + constructor; [discriminate|]. apply Forall_app. split; [|repeat constructor; discriminate].
      eapply Forall_impl; [|exact F]. intros c Hc ->. apply Hc. cbn. tauto.
  - destruct R as (-> & vs & Ie & Px). destruct p as [| | |ty' y]; try contradiction PP; cbn [plain_pat] in PP.
    destruct PP as (-> & vs' & Ie' & Iy).
    assert (vs' = vs) as ->.
    { destruct PE as (_ & N1 & _). clear - Ie Ie' N1. induction enums as [|[t l] en IH]; [easy|]. cbn in N1. inversion N1 as [|? ? NI N2]; subst.
      destruct Ie as [E|I], Ie' as [E'|I'].
      - congruence. - injection E as -> ->. destruct NI. now apply (in_map fst) in I'.
      - injection E' as -> ->. destruct NI. now apply (in_map fst) in I. - auto. }
    destruct (position_in y vs Iy) as (k' & Py).
    cbn [pat_alt]. unfold alt_text. cbn [path upto join]. rewrite app_nil_r. exists (k =? k')%Z. splits.
    + unfold one_cond. rewrite (variant_found enums ty y vs k' PE Ie Py). reflexivity.
    + cbn [fits]. rewrite Z.eqb_eq. split.
      * intros ->. split; [reflexivity|]. eapply position_inj; eauto.
      * intros [_ ->]. congruence.
    + destruct PE as (F & _). rewrite Forall_forall in F. destruct (F _ Ie) as [I1 I2]. cbn [fst snd] in *.
      rewrite Forall_forall in I2. specialize (I2 _ Iy). apply ident_facts in I1 as (_ & N1 & _). apply ident_facts in I2 as (_ & N2 & _).
      unfold nobar. rewrite !Forall_app. splits; auto. repeat constructor; discriminate.
    + now destruct ty.
    + destruct PE as (F & _). rewrite Forall_forall in F. destruct (F _ Ie) as [I1 _]. apply ident_facts in I1 as (N1 & _). cbn [fst] in *.
      intros E. apply (f_equal (@length N)) in E. rewrite !app_length in E. cbn in E. destruct ty; [congruence|]. cbn in E. lia.
Qed.

(** ** Arms *)
Lemma or_ok {A} v (f : A -> cond) (P : A -> Prop) l :
  Forall (fun p => exists b, eval v (f p) = Some b /\ (b = true <-> P p)) l ->
  exists b, eval v (COr (map f l)) = Some b /\ (b = true <-> exists p, In p l /\ P p).
Proof.
  induction 1 as [|p l (b & E & H) F (b' & E' & H')].
  - exists false. split; [reflexivity|]. split; [discriminate|now intros (p & [] & _)].
  - cbn [eval] in *. cbn [map]. rewrite E, E'. exists (b || b'). split; [reflexivity|].
    rewrite orb_true_iff, H, H'. split.
    + intros [X|(q & I & X)]; [exists p; split; [now left|exact X]|exists q; split; [now right|exact X]].
    + intros (q & [->|I] & X); [now left|right; now exists q].
Qed.

Lemma arm_ok enums s tname v a : plain_enums enums -> represents enums s tname v -> plain_type tname -> plain_arm enums s a ->
  exists t, pattern_text (alts (as_arm a)) = Ok t /\
  exists b, eval v (arm_cond (register enums) tname t) = Some b /\ (b = true <-> takes s a).
Proof.
  intros PE R (T1 & T2) (G & PA). unfold takes, as_arm. rewrite G. destruct (pats a) as [l|]; cbn [alts].
  2:{ eexists. split; [reflexivity|]. exists true. split; [reflexivity|]. split; [|reflexivity]. intros _. split; [exact I|discriminate]. }
  destruct PA as (NE & F & L). unfold pattern_text. rewrite map_map. destruct (N.ltb_spec (N.of_nat (length (join (bs "|") (map (fun x => alt_text (pat_alt x)) l)))) 1024); [|lia].
  eexists. split; [reflexivity|].
  assert (FF : Forall (fun p => exists b, eval v (one_cond (register enums) (alt_text (pat_alt p))) = Some b /\ (b = true <-> fits s p) /\
     nobar (alt_text (pat_alt p)) /\ alt_text (pat_alt p) <> [] /\ alt_text (pat_alt p) <> bs "_") l).
  { eapply Forall_impl; [|exact F]. intros p Hp. exact (pat_ok enums s tname v p PE R Hp). }
  set (t := join (bs "|") (map (fun x => alt_text (pat_alt x)) l)) in *.
  assert (Nb : Forall nobar (map (fun x => alt_text (pat_alt x)) l)).
  { apply Forall_map. eapply Forall_impl; [|exact FF]. now intros p (b & _ & _ & A & _). }
  assert (Nn : Forall (fun b => b <> []) (map (fun x => alt_text (pat_alt x)) l)).
  { apply Forall_map. eapply Forall_impl; [|exact FF]. now intros p (b & _ & _ & _ & A & _). }
  assert (W : t <> bs "_" /\ exists b, eval v (pattern_cond (register enums) t) = Some b /\ (b = true <-> exists p, In p l /\ fits s p)).
  { destruct l as [|p [|q l]]; [congruence|..].
    - subst t. cbn [map join]. inversion FF as [|? ? (b & E & H' & B & X & Y) _]; subst. split; [exact Y|]. exists b. split.
      + unfold pattern_cond. replace (existsb (N.eqb 124) (alt_text (pat_alt p))) with false; [exact E|].
        symmetry. apply not_true_is_false. intros Q. apply existsb_exists in Q as (c & Ic & Ec). apply N.eqb_eq in Ec. subst c.
        unfold nobar in B. rewrite Forall_forall in B. now apply (B 124).
      + rewrite H'. split; [intros Z; exists p; split; [now left|exact Z]|]. now intros (p' & [->|[]] & Z).
    - assert (B : In 124 t) by apply bar_in. split.
      { intros E. rewrite E in B. vm_compute in B. destruct B as [B|[]]. discriminate. }
      unfold pattern_cond. replace (existsb (N.eqb 124) t) with true.
      2:{ symmetry. apply existsb_exists. exists 124. now split. }
      subst t. cbn [map] in *. rewrite parts_join by assumption.
      change (alt_text (pat_alt p) :: alt_text (pat_alt q) :: map (fun x => alt_text (pat_alt x)) l) with (map (fun x => alt_text (pat_alt x)) (p :: q :: l)).
      rewrite map_map. apply or_ok. eapply Forall_impl; [|exact FF]. intros r (b & E & H' & _). now exists b. }
  destruct W as (W1 & b & E & H'). exists b. split.
  - unfold arm_cond. destruct (beq_bytes_spec t (bs "_")); [contradiction|].
    destruct (is_prefix (bs "Option_") tname) eqn:Q; [apply is_prefix_spec in Q as (r & Q); now destruct (T1 r)|].
    destruct (is_prefix (bs "Result_") tname) eqn:Q'; [apply is_prefix_spec in Q' as (r & Q'); now destruct (T2 r)|]. exact E.
  - rewrite H'. split; [intros X; split; [exact X|discriminate]|now intros [X _]].
Qed.

Lemma texts_ok enums s tname v arms : plain_enums enums -> represents enums s tname v -> plain_type tname -> Forall (plain_arm enums s) arms ->
  exists ts r, texts (map as_arm arms) = Ok ts /\ chain v (map (arm_cond (register enums) tname) ts) = Some r /\ first s arms r.
Proof.
  intros PE R PT F. induction F as [|a arms Ha F (ts & r & E & C & Fi)].
  - exists [], None. splits; try reflexivity. intros a [].
  - destruct (arm_ok enums s tname v a PE R PT Ha) as (t & Et & b & Eb & Hb).
    exists (t :: ts), (if b then Some 0%nat else option_map S r). splits.
    + cbn [map texts]. rewrite Et. cbn. rewrite E. reflexivity.
    + cbn [map chain]. now rewrite Eb, C.
    + destruct b.
      * split; [exists a; split; [reflexivity|now apply Hb]|]. intros j b J. lia.
      * assert (NT : ~ takes s a) by (intros X; apply Hb in X; discriminate).
        destruct r as [i|]; cbn [option_map first] in *.
        -- destruct Fi as [(b & Ib & Tb) Fj]. split; [now exists b|]. intros [|j] c J Ic; [now injection Ic as <-|]. apply (Fj j); [lia|exact Ic].
        -- intros b [<-|I]; auto.
Qed.
