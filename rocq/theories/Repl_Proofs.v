From Verif Require Import Common Edit_Model Edit_Spec Edit_Proofs Repl_Model Repl_Spec.

Lemma count_cons c x l : count c (x :: l) = ((if (x =? c)%N then 1 else 0) + count c l)%Z.
Proof. unfold count. cbn [count_occ]. destruct (N.eq_dec x c), (N.eqb_spec x c); subst; try congruence; lia. Qed.
Lemma brace_fold l : forall d, fold_left (fun d c => if (c =? 123)%N then (d + 1)%Z else if (c =? 125)%N then (d - 1)%Z else d) l d = (d + net l)%Z.
Proof.
  induction l as [|c l IH]; intros d; cbn [fold_left].
  - unfold net, count. cbn. lia.
  - rewrite IH. unfold net. rewrite !count_cons. destruct (N.eqb_spec c 123), (N.eqb_spec c 125); subst; try congruence; lia.
Qed.
Lemma brace_count_ok l : brace_count l = net l.
Proof. unfold brace_count. rewrite brace_fold. lia. Qed.

Lemma skip_blanks_ok l : exists u, l = u ++ skip_blanks l /\ Forall blank u /\ (forall c r, skip_blanks l = c :: r -> ~ blank c).
Proof.
  induction l as [|c l (u & E & B & N0)]; cbn [skip_blanks].
  - exists []. splits; auto. discriminate.
  - destruct (N.eqb_spec c 32), (N.eqb_spec c 9); cbn [orb].
    1-3: exists (c :: u); splits; [cbn; now f_equal|constructor; auto; unfold blank; auto|auto].
    exists []. splits; auto. intros c0 r [= <- <-] [?|?]; auto.
Qed.
Lemma words_first w : In w (map bs ["struct"; "impl"; "fn"; "use"; "include"; "typedef"; "enum"; "const"; "def"; "#include"; "import"]%string) ->
  exists c r, w = c :: r /\ ~ blank c.
Proof.
  intros H. cbn [map] in H. repeat (destruct H as [<-|H]; [eexists; eexists; split; [reflexivity|intros [Q|Q]; discriminate]|]). destruct H.
Qed.
Lemma header_ok l : is_header_line l = true <-> declares l.
Proof.
  unfold is_header_line, declares. rewrite existsb_exists. destruct (skip_blanks_ok l) as (u & E & B & N0). split.
  - intros (w & I & P). apply is_prefix_spec in P as (r & P). exists u, w, r. rewrite <- P. auto.
  - intros (u' & w & r & E' & B' & I). exists w. split; auto. apply is_prefix_spec. exists r.
    destruct (words_first w I) as (c & w' & -> & Nb).
    assert (u = u') as ->.
    { rewrite E in E'. clear E I. revert u' B' E'. induction B as [|x u Bx B IH]; intros u' B' E'; cbn in E'.
      - destruct u' as [|y u']; auto. cbn in E'. inversion B'; subst. exfalso. eapply N0; eauto.
      - destruct u' as [|y u']; cbn in E'; injection E' as -> E'; [contradiction|]. inversion B'; subst. f_equal. now apply IH. }
    rewrite E in E'. now apply app_inv_head in E'.
Qed.
Lemma header_false l : is_header_line l = false <-> ~ declares l.
Proof. rewrite <- header_ok. destruct (is_header_line l); split; congruence. Qed.

Lemma block_loop b : forall d g m r side,
  (forall p q, b = p ++ q -> q <> [] -> (d + nets p <> 0)%Z) -> (d + nets b = 0)%Z -> b <> [] ->
  code_loop (b ++ r) d side g m =
  code_loop r 0 side (if side then g ++ flat_map (fun l => l ++ [10%N]) b else g)
                     (if side then m else m ++ flat_map (fun l => l ++ [32%N]) b).
Proof.
  induction b as [|l b IH]; intros d g m r side H Z0 NE; [congruence|].
  cbn [app code_loop]. pose proof (H [] (l :: b) eq_refl) as H0. cbn [nets fold_right] in H0.
  destruct (Z.eqb_spec d 0) as [->|_]; [exfalso; apply H0; [discriminate|lia]|].
  rewrite brace_count_ok. destruct b as [|l2 b].
  - cbn [app flat_map]. cbn [nets fold_right] in Z0. replace (d + net l)%Z with 0%Z by lia.
    destruct side; now rewrite ?app_nil_r.
  - rewrite IH.
    + cbn [flat_map]. destruct side; rewrite <- ?app_assoc; reflexivity.
    + intros p q E Q. specialize (H (l :: p) q). cbn [nets fold_right] in H. rewrite <- Z.add_assoc. apply H; auto.
      cbn. now rewrite E.
    + cbn [nets fold_right] in Z0 |- *. lia.
    + discriminate.
Qed.
Lemma first_loop l b g m r side : block (l :: b) ->
  code_loop ((l :: b) ++ r) 0 side g m =
  if is_header_line l then code_loop r 0 true (g ++ flat_map (fun l => l ++ [10%N]) (l :: b)) m
  else code_loop r 0 false g (m ++ flat_map (fun l => l ++ [32%N]) (l :: b)).
Proof.
  intros (_ & Z0 & P). cbn [app code_loop]. change (0 =? 0)%Z with true. cbv iota. rewrite brace_count_ok.
  destruct b as [|l2 b].
  - cbn [nets fold_right] in Z0. replace (0 + net l)%Z with 0%Z by lia. cbn [app flat_map].
    destruct (is_header_line l); now rewrite ?app_nil_r.
  - rewrite block_loop.
    + cbn [flat_map]. destruct (is_header_line l); rewrite <- ?app_assoc; reflexivity.
    + intros p q E Q. pose proof (P (l :: p) q) as H. cbn [nets fold_right] in H. rewrite Z.add_0_l. apply H; auto; [|discriminate].
      cbn. now rewrite E.
    + cbn [nets fold_right] in Z0 |- *. lia.
    + discriminate.
Qed.
Lemma code_ok bl g m : Forall block bl -> parts bl g m -> forall side g0 m0,
  code_loop (concat bl) 0 side g0 m0 = (g0 ++ g, m0 ++ m).
Proof.
  intros F H. induction H as [|l b r g m D H IH|l b r g m D H IH]; intros side g0 m0; cbn [concat].
  - cbn. now rewrite !app_nil_r.
  - inversion F; subst. rewrite first_loop by auto. rewrite (proj2 (header_ok l) D). rewrite IH by auto. now rewrite <- app_assoc.
  - inversion F; subst. rewrite first_loop by auto. rewrite (proj2 (header_false l) D). rewrite IH by auto. now rewrite <- app_assoc.
Qed.
Lemma loop_length hist : forall d side g m, 
  length (fst (code_loop hist d side g m)) <= length g + fold_right (fun l n => length l + 2 + n) 0 hist /\
  length (snd (code_loop hist d side g m)) <= length m + fold_right (fun l n => length l + 2 + n) 0 hist.
Proof.
  induction hist as [|l h IH]; intros d side g m; cbn [code_loop fold_right]; [cbn; lia|].
  match goal with |- context[code_loop h ?d' ?s' ?g' ?m'] => specialize (IH d' s' g' m') end.
  cbv zeta in *. destruct (if (d =? 0)%Z then is_header_line l else side); rewrite !app_length in IH; cbn [length] in IH; lia.
Qed.
Lemma get_code_total hist : get_code hist = Ok (code_loop hist 0 false [] []).
Proof.
  unfold get_code. destruct (loop_length hist 0%Z false [] []) as (A & B).
  destruct (code_loop hist 0 false [] []) as (g, m). cbn [fst snd length] in A, B.
  match goal with |- (if ?c then _ else _) = _ => replace c with false; [reflexivity|] end.
  symmetry. apply orb_false_iff. split; apply Nat.ltb_ge; lia.
Qed.
Lemma get_code_ok bl g m : Forall block bl -> parts bl g m -> get_code (concat bl) = Ok (g, m).
Proof. intros F P. rewrite get_code_total. now rewrite (code_ok bl g m F P). Qed.

(** ** Brackets of a line *)
Lemma count_line_ok l : forall esc q b p,
  count_line l esc q b p = ((b + net (unquoted l esc q))%Z, (p + (count 40 (unquoted l esc q) - count 41 (unquoted l esc q)))%Z).
Proof.
  induction l as [|c l IH]; intros esc q b p; cbn [count_line unquoted].
  - unfold net, count. cbn. f_equal; lia.
  - destruct esc; [apply IH|]. destruct (c =? 92)%N; [apply IH|]. destruct (c =? 34)%N; [apply IH|]. destruct q; [apply IH|].
    rewrite IH. unfold net. rewrite !count_cons.
    destruct (N.eqb_spec c 123), (N.eqb_spec c 125), (N.eqb_spec c 40), (N.eqb_spec c 41); subst; try congruence; f_equal; lia.
Qed.
Lemma unquoted_newline l : forall esc q, unquoted (l ++ [10%N]) esc q = unquoted l esc q \/ unquoted (l ++ [10%N]) esc q = unquoted l esc q ++ [10%N].
Proof.
  induction l as [|c l IH]; intros esc q; cbn [app unquoted].
  - change (10 =? 92)%N with false. change (10 =? 34)%N with false. destruct esc, q; auto.
  - destruct esc; [apply IH|]. destruct (c =? 92)%N; [apply IH|]. destruct (c =? 34)%N; [apply IH|]. destruct q; [apply IH|].
    destruct (IH false false) as [->| ->]; auto.
Qed.
Lemma count_app c a b : count c (a ++ b) = (count c a + count c b)%Z.
Proof. unfold count. rewrite count_occ_app. lia. Qed.
Lemma line_counts t b p : count_line (t ++ [10%N]) false false b p = ((b + open_braces t)%Z, (p + open_parens t)%Z).
Proof.
  rewrite count_line_ok. unfold open_braces, open_parens, net.
  destruct (unquoted_newline t false false) as [->| ->]; auto. rewrite !count_app. unfold count at 2 4 6 8. cbn. f_equal; lia.
Qed.

(** ** Files *)
Lemma fgets_line l : forall n r, Forall (fun c => c <> 10%N /\ c <> 0%N) l -> length l < n -> fgets n (l ++ 10%N :: r) = (l ++ [10%N], r).
Proof.
  induction l as [|c l IH]; intros n r F L; cbn in L; (destruct n as [|n]; [lia|]); cbn [app fgets].
  - reflexivity.
  - inversion F; subst. destruct (N.eqb_spec c 10); [tauto|]. rewrite IH by (auto; lia). reflexivity.
Qed.
Lemma chomp_line l : chomp (l ++ [10%N]) = l.
Proof. unfold chomp. rewrite rev_app_distr. cbn. now rewrite rev_involutive. Qed.
Lemma cstr_line l : Forall (fun c => c <> 10%N /\ c <> 0%N) l -> cstr (l ++ [10%N]) = l ++ [10%N].
Proof. induction 1 as [|c l (A & B) F IH]; cbn; auto. destruct (N.eqb_spec c 0); [tauto|]. now rewrite IH. Qed.
Lemma load_lines_ok ls : forall n, Forall text_line ls -> length (as_file ls) <= n ->
  load_lines n (as_file ls) = filter not_empty ls.
Proof.
  induction ls as [|l ls IH]; intros n F L; cbn [as_file flat_map] in *.
  - destruct n; reflexivity.
  - inversion F; subst. destruct H1 as (C & Len). rewrite <- app_assoc in *. cbn [app] in *.
    rewrite app_length in L. cbn [length] in L.
    destruct n as [|n]; [lia|].
    assert (Q : load_lines (S n) (l ++ 10%N :: flat_map (fun l0 => l0 ++ [10%N]) ls) =
      let '(a, r) := fgets 1023 (l ++ 10%N :: as_file ls) in
      (match chomp (cstr a) with [] => [] | _ => [chomp (cstr a)] end) ++ load_lines n r).
    { destruct l; reflexivity. }
    rewrite Q, fgets_line by (auto; lia). rewrite cstr_line, chomp_line by auto.
    rewrite IH; auto; [|unfold as_file; lia]. destruct l; reflexivity.
Qed.
Lemma load_file_ok ls : Forall text_line ls -> load_file (as_file ls) = filter not_empty ls.
Proof. intros F. apply load_lines_ok; auto. Qed.
Lemma fgets_short n : forall a r, Forall (fun c => c <> 10%N /\ c <> 0%N) a -> length a = n -> fgets n (a ++ r) = (a, r).
Proof.
  induction n as [|n IH]; intros a r F L; destruct a as [|c a]; try discriminate; [reflexivity|].
  cbn [app fgets]. inversion F; subst. destruct (N.eqb_spec c 10); [tauto|]. rewrite IH; auto.
Qed.
Lemma cstr_plain (a : bytes) : Forall (fun c => c <> 10%N /\ c <> 0%N) a -> cstr a = a.
Proof. induction 1 as [|c l (A & B) F IH]; cbn; auto. destruct (N.eqb_spec c 0); [tauto|]. now rewrite IH. Qed.
Lemma chomp_plain (a : bytes) : Forall (fun c => c <> 10%N /\ c <> 0%N) a -> chomp a = a.
Proof.
  intros F. unfold chomp. destruct (rev a) as [|c r] eqn:E; auto.
  assert (In c a) by (apply in_rev; rewrite E; left; auto). rewrite Forall_forall in F. apply F in H.
  destruct (N.eqb_spec c 10); tauto.
Qed.
(** a line of more than 1023 bytes becomes two *)
Lemma load_long a b : Forall (fun c => c <> 10%N /\ c <> 0%N) a -> length a = 1023 -> text_line b -> b <> [] ->
  load_file (a ++ b ++ [10%N]) = [a; b].
Proof.
  intros Fa La Fb Nb. unfold load_file. rewrite app_length, La. change (1023 + length (b ++ [10%N])) with (S (1022 + length (b ++ [10%N]))).
  assert (Q : load_lines (S (1022 + length (b ++ [10%N]))) (a ++ b ++ [10%N]) =
      let '(x, r) := fgets 1023 (a ++ b ++ [10%N]) in
      (match chomp (cstr x) with [] => [] | _ => [chomp (cstr x)] end) ++ load_lines (1022 + length (b ++ [10%N])) r).
  { destruct a; [discriminate|]. reflexivity. }
  rewrite Q, fgets_short by auto. rewrite cstr_plain, chomp_plain by auto.
  replace (b ++ [10%N]) with (as_file [b]) by (cbn; apply app_nil_r).
  rewrite load_lines_ok; [|auto|lia]. cbn [filter]. destruct b; [congruence|]. destruct a; [discriminate|]. reflexivity.
Qed.

(** ** Commands *)
Lemma trim_left_blank l : exists u, l = u ++ trim_left l /\ Forall blank u.
Proof.
  induction l as [|c l (u & E & B)]; cbn [trim_left]; [exists []; auto|].
  destruct (N.eqb_spec c 32), (N.eqb_spec c 9); cbn [orb].
  1-3: exists (c :: u); split; [cbn; now f_equal|constructor; auto; unfold blank; auto].
  exists []. auto.
Qed.
Lemma trim_right_ok l : exists sp, l = trim_right l ++ sp /\ Forall blank sp.
Proof.
  unfold trim_right. destruct (trim_left_blank (rev l)) as (u & E & B). exists (rev u). split.
  - rewrite <- rev_app_distr, <- E. now rewrite rev_involutive.
  - now apply Forall_rev.
Qed.
Lemma trim_left_first c l : ~ blank c -> trim_left (c :: l) = c :: l.
Proof.
  intros H. cbn. destruct (N.eqb_spec c 32), (N.eqb_spec c 9); cbn [orb]; auto; exfalso; apply H; unfold blank; auto.
Qed.
Lemma trim_right_keep l c : ~ blank c -> trim_right (l ++ [c]) = l ++ [c].
Proof. intros H. unfold trim_right. rewrite rev_app_distr. cbn [rev app]. rewrite trim_left_first by auto. cbn [rev]. now rewrite rev_involutive. Qed.

Section S.
Context (is_expr : bytes -> bool) (is_void : bytes -> bool) (status : bytes -> Z) (files : bytes -> option bytes) (home : bool).
Notation step := (step is_expr is_void status files home).
Notation session := (session is_expr is_void status files home).
Notation eval := (eval is_expr is_void status home).
Notation statement := (statement is_expr is_void status home).
Notation tail := (tail home).

Lemma plain_step s t : inp s = Null -> length t <= 1022 -> plain t -> step s t = statement s t.
Proof.
  intros I L ((c & r & -> & N1 & N2) & NE). unfold Repl_Model.step. rewrite I, firstn_all2 by lia.
  destruct (trim_right_ok (c :: r)) as (sp & E & B).
  assert (forall w, (w = bs "exit" \/ w = bs "quit") -> beq_bytes (trim_right (c :: r)) w = false) as Q.
  { intros w W. destruct (beq_bytes_spec (trim_right (c :: r)) w) as [Q|]; auto. exfalso. apply NE. exists sp. split; auto.
    rewrite Q in E. destruct W as [->| ->]; auto. }
  rewrite !Q by auto. cbn [orb]. destruct (trim_right (c :: r)) as [|x y] eqn:T; auto.
  injection E as <- _. destruct (N.eqb_spec c 33); [congruence|]. destruct (N.eqb_spec c 58); [congruence|]. reflexivity.
Qed.
Lemma closed_statement s t : braces s = 0%Z -> parens s = 0%Z -> t <> [] -> closed t -> statement s t = eval s t.
Proof.
  intros B P NE (C1 & C2). unfold Repl_Model.statement. rewrite line_counts, B, P.
  destruct (Z.ltb_spec 0 (0 + open_braces t)); [lia|]. destruct (Z.ltb_spec 0 (0 + open_parens t)); [lia|]. cbn [orb].
  destruct t; [congruence|reflexivity].
Qed.
Lemma plain_nonempty t : plain t -> t <> [].
Proof. intros ((c & r & -> & _) & _). discriminate. Qed.

Lemma eval_dead s t : alive s = false -> eval s t = UB.
Proof. intros A. unfold Repl_Model.eval. now rewrite A. Qed.
Lemma tail_dead s ev : alive s = false -> tail s ev = UB.
Proof.
  intros A. unfold Repl_Model.tail, access_if_any. rewrite A. destruct home; cbn [bind]; auto. destruct (hist s); reflexivity.
Qed.
Lemma tail_state s ev s' e go : tail s ev = Ok (s', e, go) -> alive s' = false /\ go = true /\ (inp s = Null -> inp s' = Null) /\
  braces s' = braces s /\ parens s' = parens s /\ hist s' = hist s /\ (inp s <> Null -> inp s' = Dangling).
Proof.
  unfold Repl_Model.tail. intros H. apply bind_Ok in H as (x & _ & H). destruct (negb (alive s)); [discriminate|].
  destruct (inp s) eqn:I; try discriminate; injection H as <- _ <-; cbn; splits; auto; congruence.
Qed.
Definition tame {A} (r : res A) : Prop := match r with Panic | Fuel => False | _ => True end.
Lemma tame_bind {A B} (r : res A) (f : A -> res B) : tame r -> (forall a, tame (f a)) -> tame (bind r f).
Proof. destruct r; cbn; auto. Qed.
Lemma tame_get h : tame (get_code h).
Proof. rewrite get_code_total. exact I. Qed.
Lemma tame_watch ws : tame (watch_texts ws).
Proof. induction ws as [|w ws IH]; cbn [watch_texts]; [exact I|]. destruct (1024 <? _); [exact I|]. apply tame_bind; auto. intros; exact I. Qed.
Lemma tame_full h t ws : tame (full_code is_expr is_void h t ws).
Proof.
  unfold full_code. apply tame_bind; [apply tame_get|]. intros (g, m). apply tame_bind.
  - unfold shown. destruct (is_header_line t); [exact I|]. destruct (is_expr _); [|exact I].
    apply tame_bind; [apply tame_get|]. intros (g', m'). destruct (is_void _); exact I.
  - intros x. apply tame_bind.
    + destruct ws; [exact I|]. apply tame_bind; [apply tame_watch|]. intros; exact I.
    + intros y. match goal with |- tame (if ?c then _ else _) => destruct c end; exact I.
Qed.
Lemma tame_tail s ev : tame (tail s ev).
Proof.
  unfold Repl_Model.tail. apply tame_bind.
  - destruct home; [|exact I]. unfold access_if_any. destruct (alive s); [exact I|]. destruct (hist s); exact I.
  - intros e. destruct (negb (alive s)); [exact I|]. destruct (inp s); exact I.
Qed.
Lemma eval_cases s t : (eval s t = UB) \/ exists s' e, eval s t = Ok (s', e, true) /\ alive s' = false /\ inp s' = Null /\ braces s' = 0%Z /\ parens s' = 0%Z.
Proof.
  unfold Repl_Model.eval. destruct (negb (alive s)); auto.
  pose proof (tame_full (hist s) t (watches s)) as TF.
  destruct (full_code is_expr is_void (hist s) t (watches s)) as [code| | |]; cbn [bind]; auto; try destruct TF.
  match goal with |- tail ?x ?y = UB \/ _ => pose proof (tame_tail x y) as TT; destruct (tail x y) as [((s', e), go)| | |] eqn:T end; auto; try destruct TT.
  right. apply tail_state in T as (A & -> & B & C & D & _). cbn in *. exists s', e. splits; auto.
Qed.
End S.

Lemma block_one : forall t, net t = 0%Z -> block [t].
Proof.
  intros t E0. split; [discriminate|]. split; [cbn; lia|].
  intros p q E P Q. destruct p as [|a p]; [congruence|]. injection E as _ E. destruct p; [|discriminate]. cbn in E. congruence.
Qed.
Lemma block_three : forall a b c, net a = 1%Z -> net b = 0%Z -> net c = (-1)%Z -> block [a; b; c].
Proof.
  intros a b c A B C. split; [discriminate|]. split; [cbn; rewrite A, B, C; reflexivity|].
  intros p q E P Q. destruct p as [|x p]; [congruence|]. injection E as E0 E. subst x.
  destruct p as [|y p]; [cbn; rewrite A; discriminate|]. injection E as E0 E. subst y.
  destruct p as [|z p]; [cbn; rewrite A, B; discriminate|]. injection E as E0 E.
  destruct p; [|discriminate]. cbn in E. congruence.
Qed.

Lemma parts_snoc : forall bl g m t, parts bl g m -> ~ declares t -> parts (bl ++ [[t]]) g (m ++ t ++ [32%N]).
Proof.
  intros bl g m t P D. induction P as [|l b r g m D' P IH|l b r g m D' P IH].
  - pose proof (parts_stmt t [] [] [] [] D parts_nil) as Q. cbn [flat_map app] in Q. rewrite !app_nil_r in Q. exact Q.
  - cbn [app]. exact (parts_decl l b (r ++ [[t]]) g (m ++ t ++ [32%N]) D' IH).
  - cbn [app]. rewrite <- app_assoc. exact (parts_stmt l b (r ++ [[t]]) g (m ++ t ++ [32%N]) D' IH).
Qed.
