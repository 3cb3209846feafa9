(** C104: composition of structs. *)
From Verif Require Import Common Mixin_Model Mixin_Spec.
Local Open Scope Z_scope.

Definition strip (f : field) : bytes * bytes := (fname f, ftype f).
Lemma add_members_app ds a : forall st b, add_members ds st (a ++ b) = do st <- add_members ds st a; add_members ds st b.
Proof. induction a as [|m a IH]; intros st b; auto. cbn [app add_members]. destruct (add_member ds st m); cbn [bind]; auto. Qed.
Lemma add_members_ok ds ms : forall fs us, known ds ms -> (length us + length (mixins ms) <= 8)%nat ->
  exists fs', add_members ds (fs, us) ms = Ok (fs ++ fs', us ++ mixins ms) /\
    map strip fs' = map fst (flat_map (expand ds) ms).
Proof.
  induction ms as [|m ms IH]; intros fs us K L.
  - exists []. cbn. rewrite !app_nil_r. auto.
  - cbn [add_members]. destruct m as [n t w|s|n t].
    + destruct (IH (fs ++ [F n t w]) us) as (fs' & E & Q); auto. exists (F n t w :: fs'). cbn [add_member bind]. rewrite E, <- app_assoc. cbn. now rewrite Q.
    + assert (KS : find_def ds s <> None) by (apply K; now left).
      destruct (find_def ds s) as [d|] eqn:D; [|congruence]. cbn [add_member]. rewrite D. unfold add_used.
      assert (Lu : (Z.of_nat (length us) <? 8) = true) by (apply Z.ltb_lt; change (mixins (Use s :: ms)) with (s :: mixins ms) in L; cbn [length] in L; lia).
      rewrite Lu. cbn [bind].
      destruct (IH (fs ++ map (fun f => F (fname f) (ftype f) 0) (fields d)) (us ++ [s])) as (fs' & E & Q).
      * intros x X. apply K. now right.
      * rewrite app_length. change (mixins (Use s :: ms)) with (s :: mixins ms) in L. cbn [length] in *. lia.
      * eexists. rewrite E. change (mixins (Use s :: ms)) with (s :: mixins ms). rewrite <- !app_assoc. cbn [app]. split; [reflexivity|].
        cbn [flat_map expand]. rewrite D, !map_app, Q. f_equal. rewrite !map_map. reflexivity.
    + destruct (IH (fs ++ [F n t 0]) us) as (fs' & E & Q); auto. exists (F n t 0 :: fs'). cbn [add_member bind]. rewrite E, <- app_assoc. cbn. now rewrite Q.
Qed.

(** A struct has the fields of its members in order, those of a mixin in the place of the
    mixin. *)
Theorem C104_fields_partial : forall ds pack ms, known ds ms -> (length (mixins ms) <= 8)%nat ->
  exists d, parse_struct ds pack ms = Ok d /\ map strip (fields d) = map fst (flat_map (expand ds) ms) /\
    used d = mixins ms /\ packed d = pack.
Proof.
  intros ds pack ms K L. destruct (add_members_ok ds ms [] [] K L) as (fs & E & Q). unfold parse_struct. rewrite E. cbn [bind app].
  eexists. splits; [reflexivity|auto|auto|auto].
Qed.
Print Assumptions C104_fields_partial.
Definition entity := SD [F (bs "id") (bs "int") 0; F (bs "alive") (bs "char") 0] [] false.
Definition flags := SD [F (bs "mode") (bs "int") 3] [] false.
Definition world : defs := [(bs "Entity", entity); (bs "Flags", flags)].
Example C104_fields_ex :
  known world [Use (bs "Entity"); Field (bs "hp") (bs "int") 0; Named (bs "e") (bs "Entity")] /\
  (do d <- parse_struct world false [Use (bs "Entity"); Field (bs "hp") (bs "int") 0; Named (bs "e") (bs "Entity")];
   Ok (map fname (fields d))) = Ok [bs "id"; bs "alive"; bs "hp"; bs "e"].
Proof. split; [|reflexivity]. intros s [<-|[]]. discriminate. Qed.

(** False of bit-fields: a mixin's fields lose their widths. *)
Theorem C104_width_refuted : forall ds pack s d, find_def ds s = Some d -> Exists (fun f => fwidth f <> 0) (fields d) ->
  exists d', parse_struct ds pack [Use s] = Ok d' /\
    map (fun f => (fname f, ftype f, fwidth f)) (fields d') <> expand ds (Use s).
Proof.
  intros ds pack s d D X. unfold parse_struct. cbn [add_members add_member]. rewrite D. cbn. eexists. split; [reflexivity|].
  cbn [fields expand]. rewrite D. rewrite map_map. cbn. induction X as [f fs W|f fs X IH]; cbn [map]; intros Q; injection Q; auto.
Qed.
Print Assumptions C104_width_refuted.
Example C104_width_ex : find_def world (bs "Flags") = Some flags /\ Exists (fun f => fwidth f <> 0) (fields flags).
Proof. split; [reflexivity|]. constructor. discriminate. Qed.

(** False of a mixin that is not defined yet: it adds nothing, and nothing is reported. *)
Theorem C104_unknown_refuted : forall ds pack a s b, find_def ds s = None ->
  parse_struct ds pack (a ++ Use s :: b) = parse_struct ds pack (a ++ b).
Proof.
  intros ds pack a s b D. unfold parse_struct. rewrite !add_members_app. destruct (add_members ds ([], []) a) as [[fs us]| | |]; cbn [bind]; auto.
  cbn [add_members add_member]. now rewrite D.
Qed.
Print Assumptions C104_unknown_refuted.
Example C104_unknown_ex : find_def world (bs "Later") = None. Proof. reflexivity. Qed.

(** False of a struct with more than eight mixins: the ninth is written past an array. *)
Theorem C104_many_refuted : forall ds pack ms, known ds ms -> (8 < length (mixins ms))%nat -> parse_struct ds pack ms = UB.
Proof.
  intros ds pack ms. unfold parse_struct.
  assert (G : forall ms fs us, known ds ms -> (length us <= 8)%nat -> (8 < length us + length (mixins ms))%nat -> add_members ds (fs, us) ms = UB).
  { clear. induction ms as [|m ms IH]; intros fs us K L1 L2; [cbn in L2; lia|]. cbn [add_members]. destruct m as [n t w|s|n t].
    - cbn [add_member bind]. apply IH; auto.
    - assert (KS : find_def ds s <> None) by (apply K; now left).
      destruct (find_def ds s) as [d|] eqn:D; [|congruence]. cbn [add_member]. rewrite D. unfold add_used.
      destruct (Z.ltb_spec (Z.of_nat (length us)) 8); [|reflexivity]. cbn [bind].
      change (mixins (Use s :: ms)) with (s :: mixins ms) in L2. cbn [length] in L2.
      apply IH; [intros x X; apply K; now right| |]; rewrite app_length; cbn [length]; lia.
    - cbn [add_member bind]. apply IH; auto. }
  intros K L. rewrite G; auto. cbn. lia.
Qed.
Print Assumptions C104_many_refuted.
Example C104_many_ex : known world (repeat (Use (bs "Entity")) 9) /\ (8 < length (mixins (repeat (Use (bs "Entity")) 9)))%nat.
Proof. split; [|cbn; lia]. intros s X. cbn in X. destruct X as [<-|[<-|[<-|[<-|[<-|[<-|[<-|[<-|[<-|[]]]]]]]]]]; discriminate. Qed.

(** ** Method calls *)
Lemma has_spec e f : has e f = true <-> In f (funcs e).
Proof.
  unfold has. rewrite existsb_exists. split.
  - intros (x & X & Q). apply beq_bytes_true in Q. now subst.
  - intros X. exists f. split; auto. apply beq_bytes_refl.
Qed.
Lemma has_false e f : has e f = false <-> ~ In f (funcs e).
Proof. rewrite <- has_spec. destruct (has e f); split; congruence. Qed.
Lemma find_impl_spec e t m : forall is, (forall tr, In (t, tr) is -> (length (trait_name t tr m) <= 255)%nat) ->
  match find_impl e is t m with
  | Some tr => In (t, tr) is /\ In (trait_name t tr m) (funcs e)
  | None => forall tr, In (t, tr) is -> ~ In (trait_name t tr m) (funcs e)
  end.
Proof.
  induction is as [|[t' tr] is IH]; intros L; [intros tr []|]. cbn [find_impl]. destruct (beq_bytes t' t) eqn:B; cbn [andb].
  - apply beq_bytes_true in B. subst t'. rewrite firstn_all2 by (apply L; now left). destruct (has e (trait_name t tr m)) eqn:H.
    + apply has_spec in H. split; auto. now left.
    + specialize (IH (fun tr X => L tr (or_intror X))). destruct (find_impl e is t m); [destruct IH; split; auto; now right|].
      intros tr' [Q|X]; [injection Q as ->; now apply has_false|auto].
  - specialize (IH (fun tr X => L tr (or_intror X))). destruct (find_impl e is t m); [destruct IH; split; auto; now right|].
    intros tr' [Q|X]; [|auto]. injection Q as -> ->. rewrite beq_bytes_refl in B. discriminate.
Qed.
Lemma find_template_spec e t m : forall is, (forall tr, In tr is -> (length (trait_name t tr m) <= 255)%nat) ->
  match find_template e is t m with
  | Some tr => In tr is /\ In (trait_name t tr m) (funcs e)
  | None => forall tr, In tr is -> ~ In (trait_name t tr m) (funcs e)
  end.
Proof.
  induction is as [|tr is IH]; intros L; [intros tr []|]. cbn [find_template]. rewrite firstn_all2 by (specialize (L tr (or_introl eq_refl)); lia).
  destruct (has e (trait_name t tr m)) eqn:H.
  - apply has_spec in H. split; auto. now left.
  - specialize (IH (fun tr X => L tr (or_intror X))). destruct (find_template e is t m); [destruct IH; split; auto; now right|].
    intros tr' [<-|X]; [now apply has_false|auto].
Qed.
Lemma find_mixin_spec e m : forall us, (forall u, In u us -> (length (method_name u m) <= 127)%nat) ->
  match find_mixin e us m with
  | Some u => exists a b, us = a ++ u :: b /\ In (method_name u m) (funcs e) /\ forall x, In x a -> ~ In (method_name x m) (funcs e)
  | None => forall u, In u us -> ~ In (method_name u m) (funcs e)
  end.
Proof.
  induction us as [|u us IH]; intros L; [intros u []|]. cbn [find_mixin]. rewrite firstn_all2 by (apply L; now left).
  destruct (has e (method_name u m)) eqn:H.
  - apply has_spec in H. exists [], us. splits; auto.
  - apply has_false in H. specialize (IH (fun tr X => L tr (or_intror X))). destruct (find_mixin e us m) as [v|].
    + destruct IH as (a & b & -> & I1 & I2). exists (u :: a), b. splits; auto. intros x [<-|X]; auto.
    + intros x [<-|X]; auto.
Qed.

(** The method that is called is the one the type means, if it has one, unless the receiver is
    the value of a call or of an operator. *)
Theorem C104_call_partial : forall e r m, short_names e (rtype r) m -> is_ptr r = true \/ is_temp r = false ->
  (exists f, Means e (rtype r) m f) ->
  Means e (rtype r) m (fst (method_call e r m)) /\
  match snd (method_call e r m) with
  | Addr => is_ptr r = false | Direct => is_ptr r = true | ByTemp => False
  | CastAddr u => is_ptr r = false /\ fst (method_call e r m) = method_name u m /\ ~ In (method_name (rtype r) m) (funcs e)
  | CastDirect u => is_ptr r = true /\ fst (method_call e r m) = method_name u m /\ ~ In (method_name (rtype r) m) (funcs e)
  end.
Proof.
  intros e [t p tmp] m (L1 & L2 & L3) NT X. cbn [rtype is_ptr is_temp] in *. unfold method_call. cbn [rtype is_ptr is_temp].
  assert (T : negb p && tmp = false) by (destruct NT as [-> | ->]; [reflexivity|apply andb_false_r]). rewrite T.
  rewrite firstn_all2 by auto. destruct (has e (method_name t m)) eqn:H.
  { apply has_spec in H. cbn [fst snd]. split; [now constructor|]. destruct p; auto. }
  apply has_false in H.
  pose proof (find_impl_spec e t m (impls e) (fun tr I => L2 tr (or_introl I))) as FI. destruct (find_impl e (impls e) t m) as [tr|].
  { destruct FI. cbn [fst snd]. split; [apply M_trait; auto|]. destruct p; auto. }
  pose proof (find_template_spec e t m (templates e) (fun tr I => L2 tr (or_intror I))) as FT. destruct (find_template e (templates e) t m) as [tr|].
  { destruct FT. cbn [fst snd]. split; [apply M_trait; auto|]. destruct p; auto. }
  assert (NTR : forall tr, In (t, tr) (impls e) \/ In tr (templates e) -> ~ In (trait_name t tr m) (funcs e)) by (intros tr [I|I]; auto).
  destruct (find_def (structs e) t) as [d|] eqn:D.
  - pose proof (find_mixin_spec e m (used d) (fun u U => L3 d u eq_refl U)) as FM. destruct (find_mixin e (used d) m) as [u|].
    + destruct FM as (a & b & E & F1 & F2). cbn [fst snd]. split; [eapply M_mixin; eauto|]. destruct p; splits; auto.
    + exfalso. destruct X as [f X]. inversion X; subst; try contradiction.
      * eapply NTR; eauto.
      * rewrite D in *. match goal with Q : Some d = Some _ |- _ => injection Q as <- end. eapply FM; eauto. match goal with Q : used d = _ |- _ => rewrite Q end. apply in_or_app. right. now left.
  - exfalso. destruct X as [f X]. inversion X; subst; try contradiction; try congruence. eapply NTR; eauto.
Qed.
Print Assumptions C104_call_partial.
Definition player := SD [F (bs "id") (bs "int") 0; F (bs "alive") (bs "char") 0; F (bs "team") (bs "char") 0] [bs "Entity"] false.
Definition hero := SD (fields player) [bs "Player"] false.
Definition game := E [bs "Entity__kill"; bs "Player__hit"; bs "Player__Show_draw"] [(bs "Player", bs "Show")] [] ((bs "Hero", hero) :: (bs "Player", player) :: world).
Example C104_call_ex :
  method_call game (R (bs "Player") false false) (bs "hit") = (bs "Player__hit", Addr) /\
  method_call game (R (bs "Player") true false) (bs "draw") = (bs "Player__Show_draw", Direct) /\
  method_call game (R (bs "Player") false false) (bs "kill") = (bs "Entity__kill", CastAddr (bs "Entity")) /\
  short_names game (bs "Player") (bs "kill") /\ Means game (bs "Player") (bs "kill") (bs "Entity__kill").
Proof.
  splits; try reflexivity.
  - unfold short_names. splits.
    + vm_compute. lia.
    + intros tr [[Q|[]]|[]]. injection Q as <-. vm_compute. lia.
    + intros d u Q U. cbn in Q. injection Q as <-. destruct U as [<-|[]]. vm_compute. lia.
  - apply (M_mixin game (bs "Player") (bs "kill") player [] (bs "Entity") []); auto.
    + vm_compute. intuition discriminate.
    + intros tr [[Q|[]]|[]]. injection Q as <-. vm_compute. intuition discriminate.
    + now left.
Qed.

(** False of the value of a call: it gets the type's own method, even if there is none. *)
Theorem C104_temp_refuted : forall e t m, method_call e (R t false true) m = (method_name t m, ByTemp).
Proof. reflexivity. Qed.
Print Assumptions C104_temp_refuted.
(** False of the mixins of a mixin: their fields are there, their methods are not. *)
Theorem C104_deep_refuted :
  method_call game (R (bs "Hero") false false) (bs "kill") = (bs "Hero__kill", Addr) /\ ~ In (bs "Hero__kill") (funcs game) /\
  Means game (bs "Player") (bs "kill") (bs "Entity__kill") /\ used hero = [bs "Player"] /\
  parse_struct (structs game) false [Use (bs "Player")] = Ok hero.
Proof. splits; try reflexivity; [vm_compute; intuition discriminate|]. apply C104_call_ex. Qed.
Print Assumptions C104_deep_refuted.

(** ** What a mixin's method finds at the receiver *)
Section Lay.
Variable sz al : bytes -> Z.
Hypothesis OK : lawful sz al.
Lemma round_ge o a : 0 < a -> o <= round_up o a.
Proof. intros A. unfold round_up. pose proof (Z.div_mod (o + a - 1) a ltac:(lia)). pose proof (Z.mod_pos_bound (o + a - 1) a A). nia. Qed.
Lemma place_ge pack o t : o <= place al pack o t.
Proof. unfold place. destruct pack; [lia|]. apply round_ge. apply OK. Qed.
Lemma offsets_app pack a : forall cur b, offsets sz al pack cur (a ++ b) = offsets sz al pack cur a ++ offsets sz al pack (fields_end sz al pack cur a) b.
Proof. induction a as [|f a IH]; intros cur b; auto. cbn [app offsets fields_end]. now rewrite IH. Qed.
Lemma end_ge pack a : forall cur, cur <= fields_end sz al pack cur a.
Proof.
  induction a as [|f a IH]; intros cur; cbn [fields_end]; [lia|]. pose proof (place_ge pack cur (ftype f)). pose proof (IH (place al pack cur (ftype f) + sz (ftype f))).
  destruct (OK (ftype f)). lia.
Qed.
Lemma offsets_ge pack a : forall cur, Forall (fun o => cur <= o) (offsets sz al pack cur a).
Proof.
  induction a as [|f a IH]; intros cur; cbn [offsets]; constructor; [apply place_ge|].
  eapply Forall_impl; [|apply IH]. cbn. intros o H. pose proof (place_ge pack cur (ftype f)). destruct (OK (ftype f)). lia.
Qed.
Lemma end_pos pack a : Exists (fun f => 0 < sz (ftype f)) a -> forall cur, 0 <= cur -> 0 < fields_end sz al pack cur a.
Proof.
  induction 1 as [f a H|f a H IH]; intros cur C; cbn [fields_end]; pose proof (place_ge pack cur (ftype f)).
  - eapply Z.lt_le_trans; [|apply end_ge]. lia.
  - apply IH. destruct (OK (ftype f)). lia.
Qed.
Lemma offsets_types pack a : forall b cur, map ftype a = map ftype b -> offsets sz al pack cur a = offsets sz al pack cur b /\ fields_end sz al pack cur a = fields_end sz al pack cur b.
Proof.
  induction a as [|f a IH]; intros [|g b] cur E; try discriminate; auto. cbn [map] in E. injection E as E1 E2. cbn [offsets fields_end]. rewrite E1.
  destruct (IH b (place al pack cur (ftype g) + sz (ftype g)) E2) as [-> ->]. auto.
Qed.
End Lay.

(** A mixin that comes first: each of its fields has, in the struct, the offset it has in the
    mixin, so its methods work on the fields of the struct; the fields after it come after the
    last of these. *)
Theorem C104_first_partial : forall sz al ds u d ms s, lawful sz al -> find_def ds u = Some d ->
  parse_struct ds (packed d) (Use u :: ms) = Ok s ->
  (forall i o, offset sz al d i = Some o -> offset sz al s i = Some o) /\
  (forall i o, (length (fields d) <= i)%nat -> offset sz al s i = Some o -> fields_end sz al (packed d) 0 (fields d) <= o).
Proof.
  intros sz al ds u d ms s OK D E. unfold parse_struct in E. cbn [add_members add_member] in E. rewrite D in E.
  change (add_used [] u) with (Ok [u] : res (list bytes)) in E. cbn [bind app] in E.
  assert (P : exists fs' us', add_members ds (map (fun f => F (fname f) (ftype f) 0) (fields d), [u]) ms = Ok (map (fun f => F (fname f) (ftype f) 0) (fields d) ++ fs', us')).
  { assert (G : forall ms fs us st, add_members ds (fs, us) ms = Ok st -> exists fs', fst st = fs ++ fs').
    { clear. induction ms as [|m ms IH]; intros fs us st E.
      - injection E as <-. exists []. now rewrite app_nil_r.
      - cbn [add_members] in E. destruct m as [n t w|x|n t]; cbn [add_member] in E.
        + cbn [bind] in E. apply IH in E. destruct E as [fs' ->]. rewrite <- app_assoc. eauto.
        + destruct (find_def ds x); cbn [bind] in E.
          * destruct (add_used us x) as [us'| | |]; cbn [bind] in E; try discriminate. apply IH in E. destruct E as [fs' ->]. rewrite <- app_assoc. eauto.
          * apply IH in E. exact E.
        + cbn [bind] in E. apply IH in E. destruct E as [fs' ->]. rewrite <- app_assoc. eauto. }
    destruct (add_members ds _ ms) as [[fs us]| | |] eqn:E2; cbn [bind] in E; try discriminate.
    destruct (G _ _ _ _ E2) as [fs' Q]. cbn [fst] in Q. rewrite Q. eauto. }
  destruct P as (fs' & us' & P). rewrite P in E. cbn [bind] in E. injection E as <-. unfold offset. cbn [fields packed].
  rewrite offsets_app.
  assert (TT : map ftype (map (fun f => F (fname f) (ftype f) 0) (fields d)) = map ftype (fields d)) by (rewrite map_map; reflexivity).
  destruct (offsets_types sz al (packed d) _ _ 0 TT) as [E1 E2]. rewrite E1, E2.
  assert (LO : forall fs cur, length (offsets sz al (packed d) cur fs) = length fs).
  { induction fs as [|f fs IH]; intros cur; cbn [offsets length]; auto. }
  split.
  - intros i o Q. rewrite nth_error_app1; auto. apply nth_error_Some. congruence.
  - intros i o L Q. rewrite nth_error_app2 in Q by (rewrite LO; auto). apply nth_error_In in Q.
    pose proof (offsets_ge sz al OK (packed d) fs' (fields_end sz al (packed d) 0 (fields d))) as G. rewrite Forall_forall in G. now apply G.
Qed.
Print Assumptions C104_first_partial.
Definition c_size (t : bytes) : Z := if beq_bytes t (bs "int") then 4 else 1.
Lemma c_lawful : lawful c_size c_size.
Proof. intros t. unfold c_size. destruct (beq_bytes t (bs "int")); lia. Qed.
Example C104_first_ex : parse_struct world (packed entity) [Use (bs "Entity"); Field (bs "team") (bs "char") 0] = Ok player /\
  offset c_size c_size entity 1 = Some 4 /\ offset c_size c_size player 1 = Some 4 /\ offset c_size c_size player 2 = Some 5.
Proof. splits; reflexivity. Qed.

(** False of a mixin after other fields: its methods get the address of the struct all the
    same, and find other fields there; the first field of the mixin is never where they look. *)
Theorem C104_later_refuted : forall sz al ds pack a u d b s, lawful sz al -> find_def ds u = Some d -> fields d <> [] ->
  known ds (a ++ Use u :: b) -> (length (mixins (a ++ Use u :: b)) <= 8)%nat -> parse_struct ds pack (a ++ Use u :: b) = Ok s ->
  Exists (fun x => 0 < sz (snd (fst x))) (flat_map (expand ds) a) ->
  offset sz al d 0 = Some 0 /\
  exists o, offset sz al s (length (flat_map (expand ds) a)) = Some o /\ 0 < o /\
  exists f f', nth_error (fields d) 0 = Some f /\ nth_error (fields s) (length (flat_map (expand ds) a)) = Some f' /\ fname f' = fname f.
Proof.
  intros sz al ds pack a u d b s OK D NE K L E X.
  destruct (fields d) as [|f0 fs0] eqn:FD; [congruence|].
  destruct (C104_fields_partial ds pack (a ++ Use u :: b) K L) as (s' & E' & FS & _ & PK). rewrite E in E'. injection E' as <-.
  rewrite flat_map_app, map_app in FS. cbn [flat_map expand] in FS. rewrite D, FD in FS. cbn [map app] in FS.
  set (k := length (flat_map (expand ds) a)) in *.
  assert (SP : exists p q f', fields s = p ++ f' :: q /\ length p = k /\ map strip p = map fst (flat_map (expand ds) a) /\ strip f' = (fname f0, ftype f0)).
  { assert (FN : map strip (firstn k (fields s)) = map fst (flat_map (expand ds) a) /\ map strip (skipn k (fields s)) = (fname f0, ftype f0) :: map fst (map (fun f => (fname f, ftype f, fwidth f)) fs0 ++ flat_map (expand ds) b)).
    { rewrite <- firstn_map, <- skipn_map, FS. assert (LK : k = length (map fst (flat_map (expand ds) a))) by now rewrite map_length. rewrite LK. split.
      - rewrite firstn_app, Nat.sub_diag, firstn_all. cbn [firstn]. now rewrite app_nil_r.
      - rewrite skipn_app, Nat.sub_diag, skipn_all. reflexivity. }
    destruct FN as [FN1 FN2]. destruct (skipn k (fields s)) as [|f' q] eqn:SK; [discriminate|]. cbn [map] in FN2. injection FN2 as FN2a FN2b FN3.
    exists (firstn k (fields s)), q, f'. splits; auto.
    - now rewrite <- SK, firstn_skipn.
    - apply (f_equal (@length _)) in FN1. rewrite !map_length in FN1. exact FN1.
    - unfold strip. now rewrite FN2a, FN2b. }
  destruct SP as (p & q & f' & SF & LP & MP & SF').
  assert (LO : forall fs cur, length (offsets sz al (packed s) cur fs) = length fs).
  { induction fs as [|f fs IH]; intros cur; cbn [offsets length]; auto. }
  split.
  - unfold offset. rewrite FD. cbn [offsets nth_error]. f_equal. unfold place, round_up. destruct (packed d); auto.
    destruct (OK (ftype f0)) as [_ A]. rewrite Z.add_0_l. rewrite (Z.div_small (al (ftype f0) - 1)) by lia. reflexivity.
  - unfold offset. rewrite SF, offsets_app. rewrite nth_error_app2 by (rewrite LO; lia). rewrite LO, LP, Nat.sub_diag. cbn [offsets nth_error].
    eexists. split; [reflexivity|]. split.
    + eapply Z.lt_le_trans; [|apply (place_ge sz al OK)]. apply end_pos; [exact OK| |lia].
      clear - X MP. revert p MP. induction X as [x l H|x l H IH]; intros [|f p] MP; try discriminate; cbn [map] in MP; injection MP as M1 M2.
      * constructor. destruct x as [[n t] w]. cbn in *. subst. injection M1 as _ ->. exact H.
      * apply Exists_cons_tl. auto.
    + exists f0, f'. rewrite FD || idtac. splits; auto.
      * rewrite nth_error_app2 by lia. rewrite LP, Nat.sub_diag. reflexivity.
      * unfold strip in SF'. now injection SF'.
Qed.
Print Assumptions C104_later_refuted.
Example C104_later_ex : exists s, parse_struct world false [Field (bs "hp") (bs "int") 0; Use (bs "Entity")] = Ok s /\
  offset c_size c_size s 1 = Some 4 /\ offset c_size c_size entity 0 = Some 0.
Proof. eexists. splits; reflexivity. Qed.

(** False of a packed mixin in a struct that is not, and of one that is assigned as a whole:
    a field of the struct may lie in the padding at the end of the mixin. *)
Theorem C104_layout_refuted :
  (exists ds u d s i, find_def ds u = Some d /\ parse_struct ds false [Use u] = Ok s /\ offset c_size c_size d i = Some 1 /\ offset c_size c_size s i = Some 4) /\
  (exists ds u d s i o, find_def ds u = Some d /\ parse_struct ds (packed d) [Use u; Field (bs "team") (bs "char") 0] = Ok s /\
     (length (fields d) <= i)%nat /\ offset c_size c_size s i = Some o /\ o < size_of c_size c_size d).
Proof.
  split.
  - exists [(bs "P", SD [F (bs "tag") (bs "char") 0; F (bs "n") (bs "int") 0] [] true)], (bs "P"). eexists _, _, 1%nat. splits; reflexivity.
  - exists world, (bs "Entity"), entity, player, 2%nat, 5. splits; try reflexivity.
Qed.
Print Assumptions C104_layout_refuted.
