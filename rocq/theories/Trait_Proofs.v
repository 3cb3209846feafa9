From Verif Require Import Common Trait_Model Trait_Spec.
Local Open Scope nat_scope.

(** strtok on joined pieces *)
Lemma tok_cur l cur : ~ In (ch ",") l -> tok l cur = match cur ++ l with [] => [] | x => [x] end.
Proof.
  revert cur. induction l as [|c l IH]; intros cur H; cbn [tok].
  - rewrite app_nil_r. now destruct cur.
  - destruct (N.eqb_spec c (ch ",")); [subst; exfalso; apply H; now left|].
    rewrite IH by (intros I; apply H; now right). now rewrite <- app_assoc.
Qed.
Lemma tok_comma a l cur : ~ In (ch ",") a -> cur ++ a <> [] -> tok (a ++ ch "," :: l) cur = (cur ++ a) :: tok l [].
Proof.
  revert cur. induction a as [|c a IH]; intros cur H N; cbn [app tok].
  - rewrite N.eqb_refl, app_nil_r in *. destruct cur; [contradiction|reflexivity].
  - destruct (N.eqb_spec c (ch ",")); [subst; exfalso; apply H; now left|].
    rewrite IH.
    + now rewrite <- app_assoc.
    + intros I; apply H; now right.
    + destruct cur; discriminate.
Qed.
Lemma bs_comma : bs ", " = [ch ","; 32%N].
Proof. reflexivity. Qed.
(** every piece but the first starts with the space of ", " *)
Lemma tok_join x l : Forall (fun w => ~ In (ch ",") w /\ w <> []) (x :: l) ->
  tok (join (bs ", ") (x :: l)) [] = x :: map (fun w => 32%N :: w) l.
Proof.
  assert (G : forall l x pre, ~ In (ch ",") pre -> Forall (fun w => ~ In (ch ",") w /\ w <> []) (x :: l) ->
            tok (pre ++ join (bs ", ") (x :: l)) [] = (pre ++ x) :: map (fun w => 32%N :: w) l).
  { clear. induction l as [|y l IH]; intros x pre P F; inversion F as [|? ? [A B] F']; subst.
    - cbn [join map]. rewrite tok_cur.
      + cbn [app]. destruct (pre ++ x) eqn:E; [|reflexivity]. apply app_eq_nil in E as [_ E]. contradiction.
      + intros I. apply in_app_or in I. tauto.
    - change (join (bs ", ") (x :: y :: l)) with (x ++ bs ", " ++ join (bs ", ") (y :: l)).
      rewrite bs_comma. cbn [app]. rewrite app_assoc. rewrite tok_comma.
      + cbn [app map]. f_equal. apply (IH y [32%N]); auto. intros [I|[]]. discriminate.
      + intros I. apply in_app_or in I. tauto.
      + cbn [app]. intros E. apply app_eq_nil in E as [_ E]. contradiction. }
  intros F. apply (G l x []); auto.
Qed.

Lemma last_word_app a b cur : last_word (a ++ b) cur = last_word b (last_word a cur).
Proof. revert cur. induction a as [|c a IH]; intros cur; cbn [app last_word]; auto. destruct (_ || _); auto. Qed.
Lemma last_word_word w cur : word w -> last_word w cur = cur ++ w.
Proof.
  intros W. revert cur. induction W as [|c w (A & B & _) W IH]; intros cur; cbn [last_word]; [now rewrite app_nil_r|].
  rewrite (proj2 (N.eqb_neq _ _) A), (proj2 (N.eqb_neq _ _) B). cbn [orb]. rewrite IH. now rewrite <- app_assoc.
Qed.
Lemma last_word_param t n : word n -> last_word (t ++ bs " " ++ n) [] = n.
Proof.
  intros W. rewrite last_word_app. change (bs " ") with [32%N]. cbn [app last_word].
  change (_ || _) with true. cbv iota. now rewrite last_word_word.
Qed.
Lemma skip_param p : plain p -> skip_spaces (ptype p ++ bs " " ++ pname p) = ptype p ++ bs " " ++ pname p.
Proof.
  intros (_ & N & S & _). destruct (ptype p) as [|c t]; [contradiction|]. cbn [app skip_spaces].
  destruct (N.eqb_spec c 32); [subst; exfalso; apply S; now left|reflexivity].
Qed.

Lemma join_names_join l out : out <> [] ->
  join_names l out = join (bs ", ") (out :: l).
Proof.
  revert out. induction l as [|n l IH]; intros out H; [reflexivity|]. cbn [join_names].
  assert (E : 0 <? length out = true) by (destruct out; [contradiction|reflexivity]). rewrite E.
  rewrite IH; [|destruct out; discriminate].
  destruct l as [|k l]; [cbn [join]; now rewrite <- app_assoc|].
  change (join (bs ", ") (out :: n :: k :: l)) with (out ++ bs ", " ++ n ++ bs ", " ++ join (bs ", ") (k :: l)).
  change (join (bs ", ") (((out ++ bs ", ") ++ n) :: k :: l)) with (((out ++ bs ", ") ++ n) ++ bs ", " ++ join (bs ", ") (k :: l)).
  now rewrite <- !app_assoc.
Qed.

(** The pieces of a declaration *)
Definition pieces (m : method) : list bytes :=
  (if mself m then [self_text] else []) ++ map (fun p => ptype p ++ bs " " ++ pname p) (mparams m).
Lemma pieces_ok m : Forall plain (mparams m) -> Forall (fun w => ~ In (ch ",") w /\ w <> []) (pieces m).
Proof.
  intros F. apply Forall_app. split.
  - destruct (mself m); repeat constructor.
    + cbn. intuition discriminate.
    + discriminate.
  - apply Forall_map. eapply Forall_impl; [|exact F]. intros p (C & N & _ & W & _). split.
    + intros I. apply in_app_or in I as [I|I]; [contradiction|]. apply in_app_or in I as [I|I].
      * cbn in I. intuition discriminate.
      * unfold word in W. rewrite Forall_forall in W. destruct (W _ I) as (_ & _ & X). now apply X.
    + destruct (ptype p); [contradiction|discriminate].
Qed.
Definition names (m : method) : list bytes := (if mself m then [bs "self"] else []) ++ map pname (mparams m).
Lemma names_of_pieces m : Forall plain (mparams m) ->
  map (fun p => last_word (skip_spaces p) []) (tok (join (bs ", ") (pieces m)) []) = names m.
Proof.
  intros F. pose proof (pieces_ok m F) as G.
  assert (T : map (fun p => last_word (skip_spaces p) []) (pieces m) = names m).
  { unfold pieces, names. rewrite map_app. f_equal; [now destruct (mself m)|]. rewrite map_map. clear G.
    induction F as [|p ps P F IH]; [reflexivity|]. cbn [map]. rewrite IH. f_equal. rewrite skip_param by auto.
    apply last_word_param. apply P. }
  destruct (pieces m) as [|x l] eqn:E.
  - cbn [join tok map] in *. exact T.
  - rewrite tok_join by auto. rewrite <- T. cbn [map]. f_equal. rewrite map_map. apply map_ext. intros w. reflexivity.
Qed.
Lemma extract_names m : Forall plain (mparams m) ->
  extract_call_args (join (bs ", ") (pieces m)) = join (bs ", ") (names m).
Proof.
  intros F. unfold extract_call_args. rewrite names_of_pieces by auto.
  assert (N : Forall (fun n => n <> []) (names m)).
  { apply Forall_app. split; [destruct (mself m); repeat constructor; discriminate|].
    apply Forall_map. eapply Forall_impl; [|exact F]. intros p P. apply P. }
  destruct (names m) as [|n l]; [reflexivity|]. inversion N; subst. cbn [join_names length app].
  change (0 <? 0) with false. cbv iota. cbn [app]. now apply join_names_join.
Qed.

(** The parameter text *)
Lemma cat_ok s t : length s + length t < 1024 -> cat s t = Ok (s ++ t).
Proof. intros H. unfold cat. now rewrite (proj2 (Nat.ltb_lt _ _) H). Qed.
Fixpoint tail_text (ps : list param) : bytes :=
  match ps with [] => [] | p :: ps => bs ", " ++ ptype p ++ bs " " ++ pname p ++ tail_text ps end.
Lemma params_loop_ok ps count buf : buf <> [] -> count + length ps <= 16 -> length buf + length (tail_text ps) < 1024 ->
  params_loop ps count buf = Ok (buf ++ tail_text ps).
Proof.
  revert count buf. induction ps as [|p ps IH]; intros count buf B C L; cbn [params_loop tail_text].
  - now rewrite app_nil_r.
  - cbn [length] in C. rewrite (proj2 (Nat.ltb_lt count 16)) by lia. cbn [tail_text] in L. rewrite !app_length in L.
    assert (E : 0 <? length buf = true) by (destruct buf; [contradiction|reflexivity]). rewrite E.
    rewrite cat_ok by lia. cbn [bind]. rewrite cat_ok by (rewrite app_length; lia). cbn [bind].
    rewrite cat_ok by (rewrite !app_length; lia). cbn [bind]. rewrite cat_ok by (rewrite !app_length; lia). cbn [bind].
    rewrite IH.
    + now rewrite <- !app_assoc.
    + destruct buf; [contradiction|discriminate].
    + lia.
    + rewrite !app_length. lia.
Qed.
Lemma join_tail x ps : join (bs ", ") (x :: map (fun p => ptype p ++ bs " " ++ pname p) ps) = x ++ tail_text ps.
Proof.
  revert x. induction ps as [|p ps IH]; intros x; [cbn; now rewrite app_nil_r|].
  cbn [map tail_text]. change (join (bs ", ") (x :: ?y :: ?l)) with (x ++ bs ", " ++ join (bs ", ") (y :: l)).
  rewrite IH. now rewrite <- !app_assoc.
Qed.
Lemma args_text_ok m : Forall (fun p => ptype p <> []) (mparams m) ->
  (if mself m then 1 else 0) + length (mparams m) <= 16 -> length (declared m) < 1024 ->
  args_text m = Ok (declared m).
Proof.
  intros F C L. unfold args_text, declared in *. destruct (mself m).
  - cbn [app] in *. rewrite join_tail in *. rewrite app_length in L.
    rewrite cat_ok by (cbn [length]; lia). cbn [bind app]. rewrite params_loop_ok; auto. discriminate.
  - cbn [app] in *. destruct (mparams m) as [|p ps]; [reflexivity|]. cbn [map] in *. rewrite join_tail in *.
    rewrite !app_length in L. inversion F; subst.
    cbn [params_loop length]. change (0 <? 16) with true. change (0 <? 0) with false. cbv iota. cbn [bind].
    rewrite cat_ok by (cbn [length]; lia). cbn [bind app]. rewrite cat_ok by lia. cbn [bind].
    rewrite cat_ok by (rewrite app_length; lia). cbn [bind]. rewrite params_loop_ok.
    + now rewrite <- !app_assoc.
    + destruct (ptype p); [contradiction|discriminate].
    + cbn [length] in C. lia.
    + rewrite !app_length. lia.
Qed.

Lemma contains_prefix n h : is_prefix n h = true -> contains n h = true.
Proof. intros H. destruct h; cbn [contains]; now rewrite H. Qed.
Lemma contains_app n a h : contains n h = true -> contains n (a ++ h) = true.
Proof. intros H. induction a as [|c a IH]; [auto|]. cbn [app contains]. rewrite IH. now rewrite Bool.orb_true_r. Qed.
Lemma declared_self m : mself m = true -> contains (bs "self") (declared m) = true.
Proof.
  intros E. unfold declared. rewrite E. cbn [app]. rewrite join_tail. change self_text with (bs "void* " ++ bs "self").
  rewrite <- app_assoc. apply contains_app, contains_prefix. apply is_prefix_spec. eauto.
Qed.
Lemma after_self l : after (ch ",") (join (bs ", ") (bs "self" :: l)) = match l with [] => None | _ => Some (bs " " ++ join (bs ", ") l) end.
Proof. destruct l; reflexivity. Qed.

(** Names without a double underscore are their own original names *)
Lemma original_plain n : contains (bs "__") n = false -> original_name n = n.
Proof.
  intros H. unfold original_name.
  assert (G : forall p f best, contains (bs "__") p = false -> original_name_loop f p best = best); [|now apply G].
  clear. induction p as [|c p IH]; intros [|f] best H; try reflexivity.
  cbn [original_name_loop]. cbn [contains] in H. apply Bool.orb_false_iff in H as [A B]. rewrite A. apply IH, B.
Qed.

(** Tables *)
Lemma find_in {A} k (v : A) l : NoDup (map fst l) -> In (k, v) l -> find k l = Some v.
Proof.
  induction l as [|[k' v'] l IH]; intros ND I; [destruct I|]. cbn [find]. inversion ND; subst. destruct I as [E|I].
  - inversion E; subst. now rewrite beq_bytes_refl.
  - destruct (beq_bytes k' k) eqn:E; [|now apply IH]. apply beq_bytes_true in E. subst. exfalso.
    apply H1. cbn [fst]. apply in_map_iff. exists (k, v). auto.
Qed.
Lemma find_none {A} k (l : list (bytes * A)) : ~ In k (map fst l) -> find k l = None.
Proof.
  induction l as [|[k' v'] l IH]; intros H; [reflexivity|]. cbn [find]. cbn in H.
  destruct (beq_bytes k' k) eqn:E; [apply beq_bytes_true in E; tauto|apply IH; tauto].
Qed.
Lemma emit_tables_ok prog emitted : length emitted + length prog <= 1024 ->
  NoDup (map (fun i => table_symbol (istruct i) (itrait i)) prog) ->
  (forall i e, In i prog -> In e emitted -> ~ (fst e = itrait i /\ snd e = istruct i)) ->
  emit_tables prog emitted = Ok (map (fun i => (table_symbol (istruct i) (itrait i), slots i))
    (filter (fun i => negb (beq_bytes (itrait i) (bs "Copy"))) prog)).
Proof.
  revert emitted. induction prog as [|i prog IH]; intros emitted L ND D; [reflexivity|]. cbn [emit_tables].
  destruct (existsb _ emitted) eqn:X.
  { apply existsb_exists in X as (e & I & E). apply andb_prop in E as [E1 E2].
    apply beq_bytes_true in E1, E2. exfalso. apply (D i e); auto. now left. }
  cbn [length] in L. rewrite (proj2 (Nat.ltb_lt _ _)) by lia.
  inversion ND; subst. rewrite IH; auto.
  - cbn [bind filter]. destruct (beq_bytes (itrait i) (bs "Copy")); reflexivity.
  - rewrite app_length. cbn [length]. lia.
  - intros j e J I [E1 E2]. apply in_app_or in I as [I|[<-|[]]]; [apply (D j e); auto; now right|].
    cbn in E1, E2. apply H1. apply in_map_iff. exists j. now rewrite <- E1, <- E2.
Qed.
