From Verif Require Import Common Rename_Model Rename_Spec.
Local Open Scope Z_scope.

Lemma named_spec n r : named n r = true <-> r_name r = Some n.
Proof.
  unfold named. destruct (r_name r) as [m|]; [|split; discriminate]. split; [intros E; apply beq_bytes_true in E; congruence|].
  intros E. injection E as ->. apply beq_bytes_refl.
Qed.
Lemma references_spec p n u r : In (u, r) (find_references p n) <-> exists idx, In (u, idx) p /\ In r idx /\ r_name r = Some n.
Proof.
  unfold find_references. rewrite in_flat_map. split.
  - intros ([v idx] & A & B). apply in_map_iff in B as (x & E & B). injection E as -> ->. apply filter_In in B as [B C].
    exists idx. rewrite named_spec in C. auto.
  - intros (idx & A & B & C). exists (u, idx). split; auto. apply in_map. apply filter_In. rewrite named_spec. auto.
Qed.

(** ** The walk *)
Fixpoint size (n : tree) : nat := match n with T _ _ _ _ _ _ kids => S (list_sum (map size kids)) end.
Lemma size_in n l : In n l -> (size n <= list_sum (map size l))%nat.
Proof. induction l as [|a l IH]; [intros []|]. intros [->|H]; cbn [map list_sum fold_right]; [lia|]. specialize (IH H). unfold list_sum in IH. lia. Qed.
Definition found (idx : list range) (nm : bytes) (t : tok) : Prop := exists r, In r idx /\ r_name r = Some nm /\ at_tok r t.
Lemma found_app_l a b nm t : found a nm t -> found (a ++ b) nm t.
Proof. intros (r & A & B). exists r. rewrite in_app_iff. auto. Qed.
Lemma found_app_r a b nm t : found b nm t -> found (a ++ b) nm t.
Proof. intros (r & A & B). exists r. rewrite in_app_iff. auto. Qed.
Lemma found_def k n t u : name_of k n = Some n -> (1 <=? t_line t) = true -> found (add_def k n t u) n t.
Proof.
  intros N L. unfold add_def. destruct (Z.leb_spec (t_line t) 0); [apply Z.leb_le in L; lia|].
  eexists. split; [left; reflexivity|]. unfold at_tok. cbn. auto.
Qed.
Lemma found_ref k n t d u : name_of k n = Some n -> (1 <=? t_line t) = true -> (1 <=? t_line d) = true -> found (add_ref k n t d u) n t.
Proof.
  intros N L M. unfold add_ref. destruct (Z.leb_spec (t_line t) 0); [apply Z.leb_le in L; lia|].
  destruct (Z.leb_spec (t_line d) 0); [apply Z.leb_le in M; lia|].
  eexists. split; [left; reflexivity|]. unfold at_tok. cbn. auto.
Qed.
Lemma walk_complete_n j : forall n, (size n <= j)%nat -> entered n = true -> forall nm t, In (nm, t) (occurrences n) -> found (walk n) nm t.
Proof.
  induction j as [|j IH]; intros [k n t d h u kids] S E nm tk H; [cbn in S; lia|]. cbn [size] in S.
  assert (B : forallb entered kids = true -> In (nm, tk) (flat_map occurrences kids) -> found (flat_map walk kids) nm tk).
  { intros F X. apply in_flat_map in X as (x & X1 & X2). rewrite forallb_forall in F. pose proof (size_in x kids X1).
    destruct (IH x ltac:(lia) (F x X1) nm tk X2) as (r & R1 & R2). exists r. split; auto. apply in_flat_map. eauto. }
  cbn [occurrences] in H. cbn [entered] in E. cbn [walk]. apply in_app_or in H.
  destruct k as [| | | | | | | |[]| |];
    repeat match goal with X : (_ && _)%bool = true |- _ => apply andb_prop in X as [? ?] end;
    destruct H as [H|H]; try (destruct H as [H|[]]; injection H as <- <-); try contradiction;
    try (apply found_app_l; apply found_def; auto; fail);
    try (apply found_app_r; apply found_app_l; apply B; auto; fail);
    try (apply found_app_r; apply B; auto; fail);
    try (apply found_ref; auto; fail); try (apply found_app_l; apply found_ref; auto; fail);
    try (destruct kids; [destruct H|discriminate]).
Qed.
Lemma walk_complete n nm t : entered n = true -> In (nm, t) (occurrences n) -> found (walk n) nm t.
Proof. intros E H. apply (walk_complete_n (size n)); auto. Qed.
Lemma walk_sound_n j : forall n, (size n <= j)%nat -> forall r nm, In r (walk n) -> r_name r = Some nm -> exists t, In (nm, t) (occurrences n) /\ at_tok r t.
Proof.
  induction j as [|j IH]; intros [k n t d h u kids] S r nm H N; [cbn in S; lia|]. cbn [size] in S.
  assert (B : In r (flat_map walk kids) -> exists t0, In (nm, t0) (flat_map occurrences kids) /\ at_tok r t0).
  { intros X. apply in_flat_map in X as (x & X1 & X2). pose proof (size_in x kids X1).
    destruct (IH x ltac:(lia) r nm X2 N) as (t0 & R1 & R2). exists t0. split; auto. apply in_flat_map. eauto. }
  assert (D : In r (add_def k n t u) \/ In r (add_ref k n t d u) -> exists t0, In (nm, t0) (match k with KFunction | KVarDecl | KConst | KStruct | KVar | KCall true => [(n, t)] | _ => [] end) /\ at_tok r t0).
  { intros X. assert (Y : r_name r = name_of k n /\ at_tok r t).
    { unfold add_def, add_ref in X. destruct X as [X|X].
      - destruct (t_line t <=? 0); [destruct X|]. destruct X as [<-|[]]. unfold at_tok; cbn; auto.
      - destruct ((t_line t <=? 0) || (t_line d <=? 0)); [destruct X|]. destruct X as [<-|[]]. unfold at_tok; cbn; auto. }
    destruct Y as [Y1 Y2]. exists t. split; auto. rewrite N in Y1. destruct k as [| | | | | | | |[]| |]; cbn in Y1; try discriminate; injection Y1 as <-; now left. }
  cbn [occurrences]. cbn [walk] in H.
  assert (Q : (In r (add_def k n t u) \/ In r (add_ref k n t d u)) \/ In r (flat_map walk kids)).
  { destruct k as [| | | | | | | |[]| |]; repeat (apply in_app_or in H as [H|H]); auto. }
  destruct Q as [Q|Q]; [destruct (D Q) as (t0 & X & Y)|destruct (B Q) as (t0 & X & Y)]; exists t0; rewrite in_app_iff; auto.
Qed.
Lemma walk_sound n r nm : In r (walk n) -> r_name r = Some nm -> exists t, In (nm, t) (occurrences n) /\ at_tok r t.
Proof. apply (walk_sound_n (size n)). lia. Qed.

(** ** The project *)
Lemma get_set p uri idx v : get_file (set_file p uri idx) v = if beq_bytes uri v then (match get_file p uri with Some _ => Some idx | None => None end) else get_file p v.
Proof.
  induction p as [|[u i] p IH]; cbn [set_file get_file]; [now destruct (beq_bytes uri v)|].
  destruct (beq_bytes u uri) eqn:E.
  - apply beq_bytes_true in E. subst u. cbn [get_file]. destruct (beq_bytes uri v) eqn:E; reflexivity.
  - cbn [get_file]. rewrite IH. destruct (beq_bytes uri v) eqn:F; [|reflexivity]. apply beq_bytes_true in F. subst v. now rewrite E.
Qed.
Lemma set_keys p uri idx : map fst (set_file p uri idx) = map fst p.
Proof. induction p as [|[u i] p IH]; cbn [set_file]; [reflexivity|]. destruct (beq_bytes u uri); cbn [map fst]; [reflexivity|now rewrite IH]. Qed.
Lemma get_none p uri : get_file p uri = None <-> ~ In uri (map fst p).
Proof.
  induction p as [|[u i] p IH]; cbn [get_file map fst]; [split; [intros _ []|reflexivity]|].
  destruct (beq_bytes u uri) eqn:E.
  - apply beq_bytes_true in E. subst. split; [discriminate|]. intros H. exfalso. apply H. now left.
  - rewrite IH. split; [intros H [->|X]; [rewrite beq_bytes_refl in E; discriminate|auto]|intros H X; apply H; now right].
Qed.
Lemma get_in p uri idx : NoDup (map fst p) -> (get_file p uri = Some idx <-> In (uri, idx) p).
Proof.
  induction p as [|[u i] p IH]; cbn [get_file map fst]; intros ND; [split; [discriminate|intros []]|].
  inversion ND as [|? ? N1 N2]; subst. destruct (beq_bytes u uri) eqn:E.
  - apply beq_bytes_true in E. subst. split; [intros X; injection X as ->; now left|].
    intros [X|X]; [congruence|]. exfalso. apply N1. apply (in_map fst) in X. exact X.
  - rewrite IH by auto. split; [now right|]. intros [X|X]; [injection X as -> ->; rewrite beq_bytes_refl in E; discriminate|auto].
Qed.

(** ** Edits *)
Lemma nocase_spec a b : same_nocase a b = true <-> map lower a = map lower b.
Proof. unfold same_nocase. split; [apply beq_bytes_true|intros ->; apply beq_bytes_refl]. Qed.
Definition keys (ch : list (bytes * list edit)) := map fst ch.
Definition inj (U : list bytes) : Prop := forall a b, In a U -> In b U -> map lower a = map lower b -> a = b.
Lemma edits_none ch v : ~ In v (keys ch) -> edits_for ch v = [].
Proof.
  induction ch as [|[u es] ch IH]; cbn [keys map fst edits_for flat_map]; intros H; [reflexivity|].
  destruct (beq_bytes u v) eqn:E; [apply beq_bytes_true in E; subst; exfalso; apply H; now left|]. apply IH. intros X. apply H. now right.
Qed.
Lemma add_edit_for U ch u e : inj U -> In u U -> (forall k, In k (keys ch) -> In k U) -> NoDup (keys ch) ->
  (forall v, edits_for (add_edit ch u e) v = edits_for ch v ++ (if beq_bytes u v then [e] else [])) /\
  (forall k, In k (keys (add_edit ch u e)) -> In k (u :: keys ch)) /\ NoDup (keys (add_edit ch u e)).
Proof.
  intros J HU. induction ch as [|[w es] ch IH]; intros K ND.
  - cbn [add_edit edits_for flat_map keys map fst]. split; [|split; [auto|constructor; [intros []|constructor]]].
    intros v. rewrite app_nil_r. reflexivity.
  - cbn [add_edit]. inversion ND as [|? ? N1 N2]; subst. destruct (same_nocase u w) eqn:E.
    + apply nocase_spec in E. assert (u = w) as -> by (apply J; auto; apply K; now left).
      split; [|split; [intros k X; right; exact X|exact ND]].
      intros v. cbn [edits_for flat_map]. destruct (beq_bytes w v) eqn:F; [|rewrite app_nil_r; reflexivity].
      apply beq_bytes_true in F. subst v. fold (edits_for ch w). rewrite (edits_none ch w) by exact N1. now rewrite !app_nil_r.
    + destruct IH as (A & B & C); [intros k X; apply K; now right|exact N2|]. split; [|split].
      * intros v. cbn [edits_for flat_map]. fold (edits_for (add_edit ch u e) v). fold (edits_for ch v). rewrite A, app_assoc. reflexivity.
      * intros k [X|X]; [right; left; exact X|]. destruct (B k X) as [Y|Y]; [now left|right; now right].
      * cbn [keys map fst]. constructor; [|exact C]. intros X. destruct (B w X) as [Y|Y]; [|contradiction].
        subst u. rewrite (proj2 (nocase_spec w w) eq_refl) in E. discriminate.
Qed.
Definition put new := fun (ch : list (bytes * list edit)) '(u, r) => add_edit ch u (edit_of new r).
Lemma fold_edits new U refs : inj U -> (forall u r, In (u, r) refs -> In u U) -> forall ch, (forall k, In k (keys ch) -> In k U) -> NoDup (keys ch) ->
  forall v, edits_for (fold_left (put new) refs ch) v = edits_for ch v ++ map (fun x => edit_of new (snd x)) (filter (fun x => beq_bytes (fst x) v) refs).
Proof.
  intros J. induction refs as [|[u r] refs IH]; intros HU ch K ND v; [now rewrite app_nil_r|].
  cbn [fold_left put]. assert (Hu : In u U) by (apply (HU u r); now left).
  destruct (add_edit_for U ch u (edit_of new r) J Hu K ND) as (A & B & C).
  rewrite IH; auto; [|intros u' r' X; apply (HU u' r'); now right|intros k X; destruct (B k X) as [<-|Y]; auto].
  rewrite A, <- app_assoc. f_equal. cbn [filter fst]. destruct (beq_bytes u v); reflexivity.
Qed.
Lemma lower_same a b : lower a = lower b <-> same_letter a b.
Proof.
  unfold lower, same_letter. destruct (N.leb_spec 65 a), (N.leb_spec a 90), (N.leb_spec 65 b), (N.leb_spec b 90); cbn [andb]; lia.
Qed.
Lemma lower_case a : forall b, map lower a = map lower b <-> same_but_case a b.
Proof.
  unfold same_but_case. induction a as [|x a IH]; intros [|y b]; cbn [map]; try (split; [discriminate|intros X; inversion X]).
  - split; [constructor|reflexivity].
  - split; [intros X; injection X as X1 X2; constructor; [now apply lower_same|now apply IH]|].
    intros X. inversion X; subst. f_equal; [now apply lower_same|now apply IH].
Qed.
Lemma distinct_lower p : distinct_uris p -> NoDup (map (fun f => map lower (fst f)) p).
Proof.
  induction 1 as [|f p F _ IH]; cbn [map]; constructor; auto. intros X. apply in_map_iff in X as (g & E & G).
  rewrite Forall_forall in F. apply (F g G), lower_case. symmetry. exact E.
Qed.
Lemma distinct_inj p : distinct_uris p -> inj (map fst p).
Proof.
  intros D a b A B E. apply in_map_iff in A as ([u i] & A1 & A2). apply in_map_iff in B as ([w j] & B1 & B2). cbn in A1, B1. subst u w.
  apply distinct_lower in D. revert D A2 B2. induction p as [|[u k] p IH]; intros D A2 B2; [destruct A2|].
  cbn [map fst] in D. inversion D as [|? ? N1 N2]; subst. destruct A2 as [A2|A2], B2 as [B2|B2].
  - congruence.
  - injection A2 as -> ->. exfalso. apply N1. rewrite E. apply (in_map (fun f => map lower (fst f))) in B2. exact B2.
  - injection B2 as -> ->. exfalso. apply N1. rewrite <- E. apply (in_map (fun f => map lower (fst f))) in A2. exact A2.
  - auto.
Qed.
Lemma distinct_nodup p : distinct_uris p -> NoDup (map fst p).
Proof.
  intros D. apply distinct_lower in D. revert D. rewrite <- (map_map fst (map lower)). apply NoDup_map_inv.
Qed.
Lemma filter_pairs {A} (u v : bytes) (l : list A) : filter (fun x => beq_bytes (fst x) v) (map (pair u) l) = if beq_bytes u v then map (pair u) l else [].
Proof. induction l as [|a l IH]; cbn [map filter fst]; [now destruct (beq_bytes u v)|]. rewrite IH. destruct (beq_bytes u v); reflexivity. Qed.
Lemma references_of p n v : NoDup (map fst p) ->
  map snd (filter (fun x => beq_bytes (fst x) v) (find_references p n)) = match get_file p v with Some idx => filter (named n) idx | None => [] end.
Proof.
  unfold find_references. induction p as [|[u i] p IH]; intros ND; [reflexivity|]. cbn [map fst] in ND. inversion ND as [|? ? N1 N2]; subst.
  cbn [flat_map get_file]. rewrite filter_app, map_app, IH, filter_pairs by auto. destruct (beq_bytes u v) eqn:E; [|reflexivity].
  apply beq_bytes_true in E. subst v. rewrite (proj2 (get_none p u) N1), app_nil_r, map_map. apply map_id.
Qed.
Lemma symbol_named idx line col n : symbol_at idx line col = Some n -> exists r, In r idx /\ contains line col r = true /\ r_name r = Some n.
Proof.
  unfold symbol_at. destruct (List.find _ idx) as [r|] eqn:E; [|discriminate]. intros N. apply List.find_some in E as [A B].
  apply andb_prop in B as [B _]. eauto.
Qed.
Lemma rename_refs p uri idx line col n new : NoDup (map fst p) -> get_file p uri = Some idx -> symbol_at idx line col = Some n ->
  rename p uri line col new = Some (fold_left (put new) (find_references p n) []).
Proof.
  intros ND G S. unfold rename. rewrite G, S. destruct (symbol_named idx line col n S) as (r & A & B & C).
  assert (X : In (uri, r) (find_references p n)). { apply references_spec. exists idx. split; auto. apply get_in; auto. }
  destruct (find_references p n); [destruct X|reflexivity].
Qed.

(** ** Positions *)
Lemma find_at_in idx r line col : separate idx -> In r idx -> contains line col r = true -> find_at idx line col = Some r.
Proof.
  intros S H C. unfold find_at. destruct (List.find (contains line col) (rev idx)) as [x|] eqn:E.
  - apply List.find_some in E as [A B]. apply in_rev in A. f_equal. eapply S; eauto.
  - exfalso. apply in_rev in H. rewrite (List.find_none _ _ E r H) in C. discriminate.
Qed.

Lemma uses_walk_n j : forall n, (size n <= j)%nat -> entered n = true -> forall nm t d, In (nm, t, d) (uses n) ->
  exists r, In r (walk n) /\ r_def r = false /\ at_tok r t /\ r_dline r = t_line d - 1 /\ r_dcol r = t_col d - 1.
Proof.
  induction j as [|j IH]; intros [k n t d h u kids] S E nm tk dk H; [cbn in S; lia|]. cbn [size] in S.
  assert (B : forallb entered kids = true -> In (nm, tk, dk) (flat_map uses kids) ->
    exists r, In r (flat_map walk kids) /\ r_def r = false /\ at_tok r tk /\ r_dline r = t_line dk - 1 /\ r_dcol r = t_col dk - 1).
  { intros F X. apply in_flat_map in X as (x & X1 & X2). rewrite forallb_forall in F. pose proof (size_in x kids X1).
    destruct (IH x ltac:(lia) (F x X1) nm tk dk X2) as (r & R1 & R2). exists r. split; auto. apply in_flat_map. eauto. }
  assert (R : (1 <=? t_line t) = true -> (1 <=? t_line d) = true -> exists r, In r (add_ref k n t d u) /\ r_def r = false /\ at_tok r t /\ r_dline r = t_line d - 1 /\ r_dcol r = t_col d - 1).
  { intros L M. unfold add_ref. destruct (Z.leb_spec (t_line t) 0); [apply Z.leb_le in L; lia|].
    destruct (Z.leb_spec (t_line d) 0); [apply Z.leb_le in M; lia|]. eexists. split; [left; reflexivity|]. unfold at_tok. cbn. auto. }
  cbn [uses] in H. cbn [entered] in E. cbn [walk]. apply in_app_or in H.
  destruct k as [| | | | | | | |[]| |];
    repeat match goal with X : (_ && _)%bool = true |- _ => apply andb_prop in X as [? ?] end;
    destruct H as [H|H]; try contradiction; try (destruct H as [H|[]]; injection H as <- <- <-);
    try (destruct kids; [destruct H|discriminate]; fail);
    try (destruct (B ltac:(assumption) H) as (r & R1 & R2); exists r; rewrite ?in_app_iff; auto; fail);
    try (destruct R as (r & R1 & R2); auto; exists r; rewrite ?in_app_iff; auto; fail).
Qed.
Lemma defs_walk_n j : forall n, (size n <= j)%nat -> entered n = true -> forall d, In d (defs n) -> 1 <= t_line d ->
  exists r, In r (walk n) /\ r_def r = true /\ at_tok r d.
Proof.
  induction j as [|j IH]; intros [k n t d h u kids] S E dk H L; [cbn in S; lia|]. cbn [size] in S.
  assert (B : forallb entered kids = true -> In dk (flat_map defs kids) -> exists r, In r (flat_map walk kids) /\ r_def r = true /\ at_tok r dk).
  { intros F X. apply in_flat_map in X as (x & X1 & X2). rewrite forallb_forall in F. pose proof (size_in x kids X1).
    destruct (IH x ltac:(lia) (F x X1) dk X2 L) as (r & R1 & R2). exists r. split; auto. apply in_flat_map. eauto. }
  assert (R : 1 <= t_line t -> exists r, In r (add_def k n t u) /\ r_def r = true /\ at_tok r t).
  { intros M. unfold add_def. destruct (Z.leb_spec (t_line t) 0); [lia|]. eexists. split; [left; reflexivity|]. unfold at_tok. cbn. auto. }
  cbn [defs] in H. cbn [entered] in E. cbn [walk]. apply in_app_or in H.
  destruct k as [| | | | | | | |[]| |];
    repeat match goal with X : (_ && _)%bool = true |- _ => apply andb_prop in X as [? ?] end;
    destruct H as [H|H]; try contradiction; try (destruct H as [H|[]]; subst dk);
    try (destruct kids; [destruct H|discriminate]; fail);
    try (destruct (B ltac:(assumption) H) as (r & R1 & R2); exists r; rewrite ?in_app_iff; auto; fail);
    try (destruct (R L) as (r & R1 & R2); auto; exists r; rewrite ?in_app_iff; auto; fail).
Qed.
