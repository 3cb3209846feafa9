(** C99: a REPL session. *)
From Verif Require Import Common Edit_Model Edit_Spec Edit_Proofs Repl_Model Repl_Spec Repl_Proofs.

(** The program made from the history has the declarations before main and the statements in it, in
    the order in which they were entered, and lines are never taken apart from their block. *)
Theorem C99_code : forall blocks g m,
  Forall block blocks -> parts blocks g m -> get_code (concat blocks) = Ok (g, m).
Proof. exact get_code_ok. Qed.
Example C99_code_ex :
  let b := [[bs "let x = 1;"]; [bs "fn f() {"; bs "  return;"; bs "}"]; [bs "if x {"; bs "use(x);"; bs "}"]] in
  Forall block b /\ parts b (bs "fn f() {
  return;
}
") (bs "let x = 1; if x { use(x); } ").
Proof.
  assert (H : forall l, is_header_line l = false -> ~ declares l) by (intros l; apply header_false).
  split.
  - apply Forall_cons; [apply block_one; reflexivity|]. apply Forall_cons; [apply block_three; reflexivity|].
    apply Forall_cons; [apply block_three; reflexivity|constructor].
  - apply parts_stmt with (m := bs "if x { use(x); } ") (g := bs "fn f() {
  return;
}
"); [apply H; reflexivity|].
    apply parts_decl with (g := []); [apply header_ok; reflexivity|].
    apply parts_stmt with (m := []); [apply H; reflexivity|]. constructor.
Qed.

(** A statement entered first: the program that is run, and the history that is kept. *)
Theorem C99_statement_partial : forall is_expr is_void status files home blocks g m t,
  Forall block blocks -> parts blocks g m ->
  plain t -> closed t -> net t = 0%Z -> ~ declares t -> length t <= 1022 ->
  exists program shown s,
    session is_expr is_void status files home (St (concat blocks) true Null 0 0 []) [t] =
    Ok (s, Ran program :: (if home then [Kept (as_file (last_n 1000 (if (status program =? 0)%Z then concat blocks ++ [t] else concat blocks)))] else [])) /\
    program = g ++ bs "
fn main() { _z_suppress_stdout(); " ++ m ++ t ++ bs " _z_restore_stdout(); " ++ shown ++ bs " }" /\
    (shown = t \/ shown = bs "println ""{" ++ t ++ bs "}"";" /\ is_expr (firstn 7 t ++ bs ";") = true).
Proof.
  intros is_expr is_void status files home blocks g m t F P Pl C N0 D L.
  set (s0 := St (concat blocks) true Null 0 0 []).
  assert (SH : exists sh, shown is_expr is_void (concat blocks) t = Ok sh /\ length sh <= length t + 13 /\
     (sh = t \/ sh = bs "println ""{" ++ t ++ bs "}"";" /\ is_expr (firstn 7 t ++ bs ";") = true)).
  { unfold shown. rewrite (proj2 (header_false t) D). destruct (is_expr (checked_text t)) eqn:E.
    - rewrite (get_code_ok blocks g m F P). cbn [bind]. destruct (is_void _).
      + exists t. splits; auto. lia.
      + eexists. split; [reflexivity|]. split; [rewrite !app_length; cbn; lia|]. right. split; auto.
    - exists t. splits; auto. lia. }
  destruct SH as (sh & SH & SL & SC).
  set (program := g ++ bs "
fn main() { _z_suppress_stdout(); " ++ m ++ t ++ bs " _z_restore_stdout(); " ++ sh ++ bs " }").
  assert (FC : full_code is_expr is_void (concat blocks) t [] = Ok program).
  { unfold full_code. assert (G : get_code (concat blocks ++ [t]) = Ok (g, m ++ t ++ [32%N])).
    { replace (concat blocks ++ [t]) with (concat (blocks ++ [[t]])) by (rewrite concat_app; reflexivity).
      apply get_code_ok.
      - apply Forall_app. split; auto. constructor; auto using block_one.
      - now apply parts_snoc. }
    rewrite G. cbn [bind]. rewrite SH. cbn [bind].
    match goal with |- (if (?a <? ?b)%Z then _ else _) = _ => destruct (Z.ltb_spec a b) as [Q|_] end.
    - exfalso. rewrite !app_length in Q. cbn [length] in Q. 
      assert (length (bs "
fn main() { _z_suppress_stdout(); ") + length (bs "_z_restore_stdout(); ") + length (bs " }") <= 80) by (apply Nat.leb_le; vm_compute; reflexivity). lia.
    - unfold program. f_equal. repeat rewrite <- app_assoc. reflexivity. }
  exists program, sh.
  cbn [session]. rewrite plain_step by auto. rewrite closed_statement by (auto using plain_nonempty).
  unfold eval. cbn [alive negb hist watches s0]. rewrite FC. cbn [bind].
  unfold tail. cbn [inp set_inp set_hist alive hist access_if_any negb].
  destruct home; cbn [bind]; eexists; (split; [reflexivity|]); split; auto.
Qed.
Example C99_statement_partial_ex :
  plain (bs "x + 1") /\ closed (bs "f(x, ""(({"")") /\ net (bs "x + 1") = 0%Z /\ ~ declares (bs "x + 1").
Proof.
  splits.
  - split; [exists 120%N, (bs " + 1"); splits; [reflexivity|discriminate|discriminate]|].
    intros (sp & _ & [E|E]); discriminate.
  - split; vm_compute; discriminate.
  - reflexivity.
  - apply header_false. reflexivity.
Qed.

(** False of what a statement does: it is run twice, with the output off and on. *)
Theorem C99_twice_refuted : forall is_expr is_void status files home blocks g m t,
  Forall block blocks -> parts blocks g m ->
  plain t -> closed t -> net t = 0%Z -> ~ declares t -> length t <= 1022 ->
  exists a b c s ev, session is_expr is_void status files home (St (concat blocks) true Null 0 0 []) [t] =
    Ok (s, Ran (a ++ t ++ b ++ t ++ c) :: ev).
Proof.
  intros is_expr is_void status files home blocks g m t F P Pl C N0 D L.
  destruct (C99_statement_partial is_expr is_void status files home blocks g m t F P Pl C N0 D L) as (pr & sh & s & E & Ep & Sh).
  assert (exists a b, sh = a ++ t ++ b) as (a & b & ->).
  { destruct Sh as [->|(-> & _)]; [exists [], []; cbn; now rewrite app_nil_r|eauto]. }
  exists (g ++ bs "
fn main() { _z_suppress_stdout(); " ++ m), (bs " _z_restore_stdout(); " ++ a), (b ++ bs " }"). do 2 eexists.
  rewrite E. f_equal. f_equal. f_equal. f_equal. rewrite Ep. repeat rewrite <- app_assoc. reflexivity.
Qed.
Example C99_twice_refuted_ex : session (fun _ => false) (fun _ => false) (fun _ => 0%Z) (fun _ => None) false (St [] true Null 0 0 []) [bs "let x = 1;"] =
  Ok (St [bs "let x = 1;"] false Null 0 0 [], [Ran (bs "
fn main() { _z_suppress_stdout(); let x = 1; _z_restore_stdout(); let x = 1; }")]).
Proof. vm_compute. reflexivity. Qed.

(** False of a second statement: the history was freed after the first. *)
Theorem C99_second_refuted : forall is_expr is_void status files home s t1 t2 more,
  inp s = Null -> braces s = 0%Z -> parens s = 0%Z ->
  plain t1 -> closed t1 -> length t1 <= 1022 -> plain t2 -> closed t2 -> length t2 <= 1022 ->
  session is_expr is_void status files home s (t1 :: t2 :: more) = UB.
Proof.
  intros is_expr is_void status files home s t1 t2 more I B P P1 C1 L1 P2 C2 L2. cbn [session].
  rewrite plain_step, closed_statement by (auto using plain_nonempty).
  destruct (eval_cases is_expr is_void status home s t1) as [->|(s' & e & -> & A & I' & B' & P')]; [reflexivity|]. cbn [bind].
  rewrite plain_step, closed_statement by (auto using plain_nonempty). rewrite eval_dead by auto. reflexivity.
Qed.
Example C99_second_refuted_ex :
  session (fun _ => false) (fun _ => false) (fun _ => 0%Z) (fun _ => None) true (begin true [] []) [bs "let x = 1;"; bs "x"] = UB.
Proof. vm_compute. reflexivity. Qed.

(** False of a statement over several lines: the second line runs nothing and frees what was entered,
    the third line is undefined behaviour. *)
Theorem C99_lines_refuted : forall is_expr is_void status files home s t l2 l3 more,
  inp s = Null -> alive s = true -> braces s = 0%Z -> parens s = 0%Z ->
  plain t -> ~ closed t -> length t <= 1022 ->
  (exists s' ev, session is_expr is_void status files home s [t; l2] = Ok (s', ev) /\ forall p, ~ In (Ran p) ev) /\
  session is_expr is_void status files home s (t :: l2 :: l3 :: more) = UB.
Proof.
  intros is_expr is_void status files home s t l2 l3 more I A B P P1 C1 L1.
  assert (E : step is_expr is_void status files home s t = Ok (set_inp (Live (t ++ [10%N])) (open_braces t) (open_parens t) s, [], true)).
  { rewrite plain_step by auto. unfold statement. rewrite line_counts, B, P, !Z.add_0_l.
    destruct (Z.ltb_spec 0 (open_braces t)); [reflexivity|]. destruct (Z.ltb_spec 0 (open_parens t)); [reflexivity|].
    exfalso. apply C1. split; lia. }
  set (s1 := set_inp (Live (t ++ [10%N])) (open_braces t) (open_parens t) s) in *.
  assert (E2 : forall l, exists s2 ev, step is_expr is_void status files home s1 l = Ok (s2, ev, true) /\ alive s2 = false /\ inp s2 = Dangling /\ forall p, ~ In (Ran p) ev).
  { intros l. unfold step. cbn [inp s1 set_inp]. unfold tail. cbn [inp s1 set_inp]. unfold access_if_any. cbn [alive s1 set_inp]. rewrite A.
    destruct home; cbn [bind negb app]; do 2 eexists; (split; [reflexivity|]); splits; auto; intros p; cbn; intuition discriminate. }
  split.
  - cbn [session]. rewrite E. cbn [bind]. destruct (E2 l2) as (s2 & ev & -> & _ & _ & N0). cbn [bind]. do 2 eexists. split; [reflexivity|].
    cbn [app]. rewrite app_nil_r. exact N0.
  - cbn [session]. rewrite E. cbn [bind]. destruct (E2 l2) as (s2 & ev & -> & A2 & I2 & _). cbn [bind].
    unfold step. rewrite I2. rewrite tail_dead by auto. reflexivity.
Qed.
Example C99_lines_refuted_ex : plain (bs "fn f() {") /\ ~ closed (bs "fn f() {").
Proof.
  split.
  - split; [exists 102%N, (bs "n f() {"); splits; [reflexivity|discriminate|discriminate]|]. intros (sp & _ & [E|E]); discriminate.
  - intros (A & _). vm_compute in A. congruence.
Qed.

(** The history file gives back the last thousand entries at the next start. *)
Theorem C99_kept_partial : forall entries,
  Forall text_line entries -> Forall (fun e => e <> []) entries ->
  hist (begin true (as_file (last_n 1000 entries)) []) = last_n 1000 entries.
Proof.
  intros es F F2. cbn [begin hist]. unfold last_n. rewrite <- (firstn_skipn (length es - 1000) es) in F, F2.
  apply Forall_app in F as [_ F]. apply Forall_app in F2 as [_ F2].
  rewrite load_file_ok by auto. change (load_init []) with (@nil bytes). rewrite app_nil_r.
  induction F2 as [|e r E F2 IH]; auto. inversion F; subst. cbn [filter].
  rewrite IH by auto. destruct e; [congruence|reflexivity].
Qed.
Example C99_kept_partial_ex : Forall text_line [bs "let x = 1;"; bs "  x"] /\ Forall (fun e => e <> []) [bs "let x = 1;"; bs "  x"].
Proof.
  split; repeat constructor; try discriminate; cbn; lia.
Qed.
(** False of an entry of two lines: it comes back as two entries. *)
Theorem C99_kept_refuted : forall a b, text_line a -> text_line b -> a <> [] -> b <> [] ->
  hist (begin true (as_file [a ++ [10%N] ++ b]) []) = [a; b].
Proof.
  intros a b A B Na Nb. cbn [begin hist].
  replace (as_file [a ++ [10%N] ++ b]) with (as_file [a; b]).
  - rewrite load_file_ok by auto. destruct a, b; try congruence; reflexivity.
  - unfold as_file. cbn. rewrite !app_nil_r, <- !app_assoc. reflexivity.
Qed.
Example C99_kept_refuted_ex : text_line (bs "fn f() {") /\ text_line (bs "}").
Proof. split; (split; [repeat constructor; discriminate|cbn; lia]). Qed.

(** False of long lines: what is beyond 1022 bytes is dropped without a word. *)
Theorem C99_long_refuted : forall is_expr is_void status files home s t,
  step is_expr is_void status files home s t = step is_expr is_void status files home s (firstn 1022 t).
Proof. intros. unfold step. rewrite firstn_firstn, Nat.min_id. reflexivity. Qed.
Example C99_long_refuted_ex : length (firstn 1022 (repeat 120%N 2000)) = 1022 /\ length (repeat 120%N 2000) = 2000.
Proof. split; [rewrite firstn_length|]; rewrite ?repeat_length; lia. Qed.

(** False of statements whose first letters are those of a declaration: they are put before main. *)
Theorem C99_header_refuted : forall t, get_code [bs "use" ++ t] = Ok (bs "use" ++ t ++ [10%N], []).
Proof.
  intros t. rewrite get_code_total. cbn [code_loop]. change (0 =? 0)%Z with true. cbv iota.
  replace (is_header_line (bs "use" ++ t)) with true; [cbn [app]; rewrite <- app_assoc; reflexivity|].
  symmetry. apply header_ok. exists [], (bs "use"), t. splits; auto. cbn. tauto.
Qed.
Example C99_header_refuted_ex : get_code [bs "user = 1;"] = Ok (bs "user = 1;
", []).
Proof. vm_compute. reflexivity. Qed.

(** False of the test for expressions: only seven bytes of the line are looked at.  An assignment to a
    name of seven letters is printed like an expression. *)
Theorem C99_expression_refuted : forall is_void status files r,
  (forall p, is_void p = false) -> closed (bs "counter = " ++ r) -> length r <= 1000 ->
  exists s ev, session (fun t => beq_bytes t (bs "counter;")) is_void status files false (St [] true Null 0 0 []) [bs "counter = " ++ r] =
    Ok (s, [Ran (ev ++ bs "println ""{counter = " ++ r ++ bs "}""; }")]).
Proof.
  intros is_void status files r V C L.
  assert (Pl : plain (bs "counter = " ++ r)).
  { split; [exists 99%N, (bs "ounter = " ++ r); splits; [reflexivity|discriminate|discriminate]|]. intros (sp & _ & [E|E]); discriminate. }
  assert (D : ~ declares (bs "counter = " ++ r)) by (apply header_false; reflexivity).
  cbn [session]. rewrite plain_step by (auto; rewrite app_length; cbn; lia). rewrite closed_statement by (auto using plain_nonempty).
  unfold eval. cbn [alive negb hist watches].
  assert (Sh : shown (fun t => beq_bytes t (bs "counter;")) is_void [] (bs "counter = " ++ r) = Ok (bs "println ""{" ++ (bs "counter = " ++ r) ++ bs "}"";")).
  { unfold shown. replace (is_header_line (bs "counter = " ++ r)) with false by reflexivity.
    replace (beq_bytes (checked_text (bs "counter = " ++ r)) (bs "counter;")) with true by reflexivity.
    rewrite get_code_total. cbn [bind code_loop]. now rewrite V. }
  unfold full_code. rewrite get_code_total. cbn [bind app]. rewrite Sh. cbn [bind].
  match goal with |- context[code_loop ?a ?b ?c ?d ?e] => change (code_loop a b c d e) with (@nil N, (bs "counter = " ++ r) ++ [32%N]) end.
  cbn [bind].
  match goal with |- context[(?a <? ?b)%Z] => destruct (Z.ltb_spec a b) as [Q|_] end.
  { exfalso. rewrite !app_length in Q. cbn [length] in Q.
    assert (length (bs "
fn main() { _z_suppress_stdout(); ") + length (bs "_z_restore_stdout(); ") + length (bs " }") + length (bs "println ""{") + length (bs "}"";") + length (bs "counter = ") <= 110) by (apply Nat.leb_le; vm_compute; reflexivity). lia. }
  cbn [bind]. unfold tail. cbn [inp set_inp set_hist alive hist negb bind app].
  eexists. exists (bs "
fn main() { _z_suppress_stdout(); " ++ (bs "counter = " ++ r) ++ [32%N] ++ bs "_z_restore_stdout(); "). f_equal. f_equal. f_equal. f_equal.
  repeat rewrite <- app_assoc. reflexivity.
Qed.
Example C99_expression_refuted_ex : closed (bs "counter = " ++ bs "5").
Proof. split; vm_compute; discriminate. Qed.

(** False of commands that do not exist: they are run as statements. *)
Theorem C99_unknown_refuted :
  session (fun _ => false) (fun _ => false) (fun _ => 1%Z) (fun _ => None) false (St [] true Null 0 0 []) [bs ":exit"] =
  Ok (St [] false Null 0 0 [], [Ran (bs "
fn main() { _z_suppress_stdout(); :exit _z_restore_stdout(); :exit }")]).
Proof. vm_compute. reflexivity. Qed.

(** False of the lines of the start file: those that start with # are skipped, includes too. *)
Theorem C99_init_refuted : forall kept r,
  Forall (fun c => c <> 10%N /\ c <> 0%N) r -> length r <= 1000 ->
  hist (begin true kept ([35%N] ++ r ++ [10%N])) = hist (begin true kept []).
Proof.
  intros kept r F L. cbn [begin hist]. f_equal. cbn [app]. unfold load_init.
  change (init_lines (length (@nil N)) []) with (@nil bytes). cbn [length init_lines].
  change (35%N :: r ++ [10%N]) with ((35%N :: r) ++ 10%N :: []).
  assert (F' : Forall (fun c => c <> 10%N /\ c <> 0%N) (35%N :: r)) by (constructor; auto; split; discriminate).
  rewrite fgets_line by (auto; cbn [length]; lia). rewrite cstr_line, chomp_line by auto. cbn [skip_blanks].
  change ((35 =? 32) || (35 =? 9))%N with false. cbv iota. change ((35 =? 47) || (35 =? 35))%N with true. cbv iota. cbn [app].
  destruct (length (r ++ [10%N])); reflexivity.
Qed.
Example C99_init_refuted_ex : hist (begin true [] (bs "#include <math.h>
let x = 1;
")) = [bs "let x = 1;"].
Proof. vm_compute. reflexivity. Qed.

(** :undo takes away the last entry, :delete the one with this number. *)
Theorem C99_delete : forall is_expr is_void status files home s d,
  inp s = Null -> alive s = true -> d <> [] -> Forall digit d -> length d <= 9 ->
  (forall a x b, hist s = a ++ x :: b -> value d = (Z.of_nat (length a) + 1)%Z ->
     step is_expr is_void status files home s (bs ":delete " ++ d) = Ok (set_hist (a ++ b) s, [], true)) /\
  ((value d < 1 \/ Z.of_nat (length (hist s)) < value d)%Z ->
     step is_expr is_void status files home s (bs ":delete " ++ d) = Ok (s, [], true)) /\
  (forall a x, hist s = a ++ [x] -> step is_expr is_void status files home s (bs ":undo") = Ok (set_hist a s, [], true)).
Proof.
  intros is_expr is_void status files home s d I A NE F L.
  assert (V : atoi d = value d).
  { assert (Dg : forall l v, Forall digit l -> digits l v = fold_left (fun v c => (10 * v + (Z.of_N c - 48))%Z) l v).
    { induction l as [|c l IH]; intros v Fl; cbn [digits fold_left]; auto. inversion Fl; subst. unfold digit in H1.
      destruct (N.leb_spec 48 c); [|lia]. destruct (N.leb_spec c 57); [|lia]. cbn [andb]. rewrite IH by auto. f_equal. lia. }
    unfold atoi, value. destruct d as [|c r]; [congruence|]. pose proof (Dg (c :: r) 0%Z F) as Q. inversion F; subst. unfold digit in *.
    cbn [skip_space]. unfold isspace. destruct (N.eqb_spec c 32); [lia|]. destruct (N.leb_spec c 13); [lia|]. rewrite andb_false_r. cbn [orb].
    destruct (N.eqb_spec c 45); [lia|]. destruct (N.eqb_spec c 43); [lia|]. exact Q. }
  assert (St1 : step is_expr is_void status files home s (bs ":delete " ++ d) =
     if ((0 <=? value d - 1) && (value d - 1 <? Z.of_nat (length (hist s))))%Z
     then Ok (set_hist (remove_nth (Z.to_nat (value d - 1)) (hist s)) s, [], true) else Ok (s, [], true)).
  { unfold step. rewrite I, firstn_all2 by (rewrite app_length; cbn; lia).
    assert (T : trim_right (bs ":delete " ++ d) = bs ":delete " ++ d).
    { destruct d as [|c r] using rev_ind; [congruence|]. rewrite app_assoc. apply trim_right_keep.
      apply Forall_app in F as (_ & F). inversion F; subst. unfold digit in *. intros [Q|Q]; lia. }
    rewrite T. change (beq_bytes (bs ":delete " ++ d) (bs "exit") || beq_bytes (bs ":delete " ++ d) (bs "quit")) with false. cbv iota.
    change (command is_expr is_void status files home s (bs ":delete " ++ d) (bs ":delete " ++ d) =
      if ((0 <=? value d - 1) && (value d - 1 <? Z.of_nat (length (hist s))))%Z
      then Ok (set_hist (remove_nth (Z.to_nat (value d - 1)) (hist s)) s, [], true) else Ok (s, [], true)).
    unfold command.
    change (beq_bytes (bs ":delete " ++ d) (bs ":help")) with false. change (beq_bytes (bs ":delete " ++ d) (bs ":reset")) with false.
    change (beq_bytes (bs ":delete " ++ d) (bs ":quit")) with false. change (is_prefix (bs ":show ") (bs ":delete " ++ d)) with false.
    change (beq_bytes (bs ":delete " ++ d) (bs ":clear")) with false. change (beq_bytes (bs ":delete " ++ d) (bs ":undo")) with false.
    change (is_prefix (bs ":delete ") (bs ":delete " ++ d)) with true. cbv iota.
    change (skipn 8 (bs ":delete " ++ d)) with d. rewrite V. unfold access. rewrite A. reflexivity. }
  splits.
  - intros a x b E V1. rewrite St1, V1. replace (Z.of_nat (length a) + 1 - 1)%Z with (Z.of_nat (length a)) by lia.
    destruct (Z.leb_spec 0 (Z.of_nat (length a))); [|lia].
    destruct (Z.ltb_spec (Z.of_nat (length a)) (Z.of_nat (length (hist s)))) as [_|Q]; [|rewrite E, app_length in Q; cbn in Q; lia].
    cbn [andb]. rewrite Nat2Z.id. unfold remove_nth. rewrite E. rewrite firstn_exact by auto.
    replace (a ++ x :: b) with ((a ++ [x]) ++ b) by now rewrite <- app_assoc.
    rewrite skipn_exact by (rewrite app_length; cbn; lia). reflexivity.
  - intros V1. rewrite St1. destruct (Z.leb_spec 0 (value d - 1)); [|reflexivity].
    destruct (Z.ltb_spec (value d - 1) (Z.of_nat (length (hist s)))); [lia|]. reflexivity.
  - intros a x E. unfold step. rewrite I.
    change (command is_expr is_void status files home s (bs ":undo") (bs ":undo") = Ok (set_hist a s, [], true)).
    unfold command.
    change (access_if_any s (next (set_hist (removelast (hist s)) s) []) = Ok (set_hist a s, [], true)).
    unfold access_if_any. rewrite A, E, removelast_last. reflexivity.
Qed.
Example C99_delete_ex : Forall digit (bs "2") /\ value (bs "12") = 12%Z.
Proof. split; [repeat constructor; vm_compute; discriminate|reflexivity]. Qed.

(** :unwatch removes the watch with that number. *)
Lemma atoi_value d : d <> [] -> Forall digit d -> atoi d = value d.
Proof.
  intros NE F.
  assert (Dg : forall l v, Forall digit l -> digits l v = fold_left (fun v c => (10 * v + (Z.of_N c - 48))%Z) l v).
  { induction l as [|c l IH]; intros v Fl; cbn [digits fold_left]; auto. inversion Fl; subst. unfold digit in H1.
    destruct (N.leb_spec 48 c); [|lia]. destruct (N.leb_spec c 57); [|lia]. cbn [andb]. rewrite IH by auto. f_equal. lia. }
  unfold atoi, value. destruct d as [|c r]; [congruence|]. pose proof (Dg (c :: r) 0%Z F) as Q. inversion F; subst. unfold digit in *.
  cbn [skip_space]. unfold isspace. destruct (N.eqb_spec c 32); [lia|]. destruct (N.leb_spec c 13); [lia|]. rewrite andb_false_r. cbn [orb].
  destruct (N.eqb_spec c 45); [lia|]. destruct (N.eqb_spec c 43); [lia|]. exact Q.
Qed.
Theorem C99_unwatch : forall is_expr is_void status files home s d,
  inp s = Null -> d <> [] -> Forall digit d -> length d <= 9 ->
  (forall a x b, watches s = a ++ x :: b -> value d = (Z.of_nat (length a) + 1)%Z ->
     step is_expr is_void status files home s (bs ":unwatch " ++ d) = Ok (set_watches (a ++ b) s, [], true)) /\
  ((value d < 1 \/ Z.of_nat (length (watches s)) < value d)%Z ->
     step is_expr is_void status files home s (bs ":unwatch " ++ d) = Ok (s, [], true)).
Proof.
  intros is_expr is_void status files home s d I NE F L.
  assert (St1 : step is_expr is_void status files home s (bs ":unwatch " ++ d) =
     if ((0 <=? value d - 1) && (value d - 1 <? Z.of_nat (length (watches s))))%Z
     then Ok (set_watches (remove_nth (Z.to_nat (value d - 1)) (watches s)) s, [], true) else Ok (s, [], true)).
  { unfold step. rewrite I, firstn_all2 by (rewrite app_length; cbn; lia).
    assert (T : trim_right (bs ":unwatch " ++ d) = bs ":unwatch " ++ d).
    { destruct d as [|c r] using rev_ind; [congruence|]. rewrite app_assoc. apply trim_right_keep.
      apply Forall_app in F as (_ & F). inversion F; subst. unfold digit in *. intros [Q|Q]; lia. }
    rewrite T. change (beq_bytes (bs ":unwatch " ++ d) (bs "exit") || beq_bytes (bs ":unwatch " ++ d) (bs "quit")) with false. cbv iota.
    change (command is_expr is_void status files home s (bs ":unwatch " ++ d) (bs ":unwatch " ++ d) = 
      if ((0 <=? value d - 1) && (value d - 1 <? Z.of_nat (length (watches s))))%Z
      then Ok (set_watches (remove_nth (Z.to_nat (value d - 1)) (watches s)) s, [], true) else Ok (s, [], true)).
    unfold command.
    change ((let idx := (atoi d - 1)%Z in
      if ((0 <=? idx) && (idx <? Z.of_nat (length (watches s))))%Z
      then next (set_watches (remove_nth (Z.to_nat idx) (watches s)) s) [] else next s []) = 
      if ((0 <=? value d - 1) && (value d - 1 <? Z.of_nat (length (watches s))))%Z
      then Ok (set_watches (remove_nth (Z.to_nat (value d - 1)) (watches s)) s, [], true) else Ok (s, [], true)).
    rewrite atoi_value by auto. reflexivity. }
  split.
  - intros a x b E V. rewrite St1, V, E. rewrite app_length. cbn [length].
    destruct (Z.leb_spec 0 (Z.of_nat (length a) + 1 - 1)); [|lia].
    destruct (Z.ltb_spec (Z.of_nat (length a) + 1 - 1) (Z.of_nat (length a + S (length b)))); [|lia]. cbn [andb].
    replace (Z.of_nat (length a) + 1 - 1)%Z with (Z.of_nat (length a)) by lia. rewrite Nat2Z.id. unfold remove_nth.
    rewrite firstn_app, firstn_all, Nat.sub_diag. cbn [firstn]. rewrite app_nil_r.
    replace (skipn (S (length a)) (a ++ x :: b)) with b; auto.
    change (a ++ x :: b) with (a ++ [x] ++ b). rewrite app_assoc, skipn_app, skipn_all2 by (rewrite app_length; cbn; lia).
    rewrite app_length. cbn [length]. replace (S (length a) - (length a + 1)) with 0 by lia. reflexivity.
  - intros V. rewrite St1. destruct (Z.leb_spec 0 (value d - 1)); auto.
    destruct (Z.ltb_spec (value d - 1) (Z.of_nat (length (watches s)))); auto. lia.
Qed.
Example C99_unwatch_ex : Forall digit (bs "2") /\ value (bs "2") = (Z.of_nat (length [bs "a"]) + 1)%Z /\ [bs "a"; bs "b"] = [bs "a"] ++ bs "b" :: [].
Proof. splits; [repeat constructor; vm_compute; discriminate|reflexivity|reflexivity]. Qed.

(** :load appends the lines of a file that are not empty. *)
Theorem C99_load_partial : forall is_expr is_void status files home s name ls,
  inp s = Null -> alive s = true -> Forall text_line ls -> length name <= 1000 -> (exists n c, name = n ++ [c] /\ ~ blank c) ->
  files name = Some (as_file ls) ->
  step is_expr is_void status files home s (bs ":load " ++ name) = Ok (set_hist (hist s ++ filter not_empty ls) s, [], true).
Proof.
  intros is_expr is_void status files home s name ls I A F L (n & c & E & Nb) Fl.
  unfold step. rewrite I, firstn_all2 by (rewrite app_length; cbn; lia).
  assert (T : trim_right (bs ":load " ++ name) = bs ":load " ++ name).
  { rewrite E, app_assoc. now apply trim_right_keep. }
  rewrite T. change (beq_bytes (bs ":load " ++ name) (bs "exit") || beq_bytes (bs ":load " ++ name) (bs "quit")) with false. cbv iota.
  change (command is_expr is_void status files home s (bs ":load " ++ name) (bs ":load " ++ name) = Ok (set_hist (hist s ++ filter not_empty ls) s, [], true)).
  unfold command.
  change (match files name with
    | None => next s []
    | Some f => match load_file f with [] => next s [] | ls => access s (next (set_hist (hist s ++ ls) s) []) end
    end = Ok (set_hist (hist s ++ filter not_empty ls) s, [], true)).
  rewrite Fl, load_file_ok by auto. unfold access. rewrite A. destruct (filter not_empty ls); [|reflexivity].
  unfold next, set_hist. rewrite app_nil_r. destruct s; reflexivity.
Qed.
Example C99_load_partial_ex : Forall text_line [bs "let x = 1;"] /\ exists n c, bs "a.zc" = n ++ [c] /\ ~ blank c.
Proof.
  split; [repeat constructor; try discriminate; cbn; lia|]. exists (bs "a.z"), 99%N. split; [reflexivity|]. intros [Q|Q]; discriminate.
Qed.

(** False of longer lines: after 1023 bytes a line goes on as another one. *)
Theorem C99_load_long_refuted : forall is_expr is_void status files home s name a b,
  inp s = Null -> alive s = true -> length name <= 1000 -> (exists n c, name = n ++ [c] /\ ~ blank c) ->
  Forall (fun c => c <> 10%N /\ c <> 0%N) a -> length a = 1023 -> text_line b -> b <> [] ->
  files name = Some (a ++ b ++ [10%N]) ->
  step is_expr is_void status files home s (bs ":load " ++ name) = Ok (set_hist (hist s ++ [a; b]) s, [], true).
Proof.
  intros is_expr is_void status files home s name a b I A L (n & c & E & Nb) Fa La Fb Nb' Fl.
  unfold step. rewrite I, firstn_all2 by (rewrite app_length; cbn; lia).
  assert (T : trim_right (bs ":load " ++ name) = bs ":load " ++ name).
  { rewrite E, app_assoc. now apply trim_right_keep. }
  rewrite T. change (beq_bytes (bs ":load " ++ name) (bs "exit") || beq_bytes (bs ":load " ++ name) (bs "quit")) with false. cbv iota.
  change (command is_expr is_void status files home s (bs ":load " ++ name) (bs ":load " ++ name) = Ok (set_hist (hist s ++ [a; b]) s, [], true)).
  unfold command.
  change (match files name with
    | None => next s []
    | Some f => match load_file f with [] => next s [] | ls => access s (next (set_hist (hist s ++ ls) s) []) end
    end = Ok (set_hist (hist s ++ [a; b]) s, [], true)).
  rewrite Fl, load_long by auto. unfold access. rewrite A. reflexivity.
Qed.
Example C99_load_long_ex : Forall (fun c => c <> 10%N /\ c <> 0%N) (repeat 97%N 1023) /\ length (repeat 97%N 1023) = 1023 /\ text_line (bs "b").
Proof.
  splits; [|apply repeat_length|split; [repeat constructor; discriminate|cbn; lia]].
  apply Forall_forall. intros x X. apply repeat_spec in X. subst. split; discriminate.
Qed.

(** The other commands that use the history. *)
Theorem C99_commands_partial : forall is_expr is_void status files home s blocks g m,
  inp s = Null -> alive s = true -> hist s = concat blocks -> Forall block blocks -> parts blocks g m ->
  step is_expr is_void status files home s (bs ":reset") = Ok (set_hist [] s, [], true) /\
  step is_expr is_void status files home s (bs ":history") = Ok (s, [Listed (hist s)], true) /\
  step is_expr is_void status files home s (bs ":run") = Ok (s, [Ran (g ++ bs "
fn main() { " ++ m ++ bs " }")], true) /\
  (forall name, length name <= 1000 -> (exists n c, name = n ++ [c] /\ ~ blank c) ->
     step is_expr is_void status files home s (bs ":save " ++ name) = Ok (s, [Wrote name (g ++ bs "

fn main() {
" ++ m ++ bs "
}
")], true)) /\
  (forall w n c, length w <= 1000 -> w = n ++ [c] -> ~ blank c -> (forall r, w <> 32%N :: r) -> length (watches s) < 16 ->
     step is_expr is_void status files home s (bs ":watch " ++ w) = Ok (set_watches (watches s ++ [w]) s, [], true)) /\
  (forall w n c, length w <= 1000 -> w = n ++ [c] -> ~ blank c -> step is_expr is_void status files home s (bs "!" ++ w) = Ok (s, [Shell w], true)) /\
  (forall x, In x [bs "exit"; bs "quit"; bs ":quit"] -> step is_expr is_void status files home s x = Ok (s, [], false)).
Proof.
  intros is_expr is_void status files home s blocks g m I A H F P.
  pose proof (get_code_ok blocks g m F P) as G. rewrite <- H in G.
  assert (T : forall p w n c, w = n ++ [c] -> ~ blank c -> trim_right (p ++ w) = p ++ w).
  { intros p w n c -> Nb. rewrite app_assoc. now apply trim_right_keep. }
  assert (AA : forall X (x : res X), access_if_any s x = x) by (intros X x; unfold access_if_any; now rewrite A).
  splits.
  - unfold step. rewrite I. change (access_if_any s (next (set_hist [] s) []) = Ok (set_hist [] s, [], true)). apply AA.
  - unfold step. rewrite I. change (access_if_any s (next s [Listed (hist s)]) = Ok (s, [Listed (hist s)], true)). apply AA.
  - unfold step. rewrite I. change (access_if_any s (do '(g, m) <- get_code (hist s); next s [Ran (g ++ bs "
fn main() { " ++ m ++ bs " }")]) = Ok (s, [Ran (g ++ bs "
fn main() { " ++ m ++ bs " }")], true)). rewrite AA, G. reflexivity.
  - intros name L (n & c & E & Nb). unfold step. rewrite I, firstn_all2 by (rewrite app_length; cbn; lia). rewrite (T _ name n c E Nb).
    change (access_if_any s (do '(g, m) <- get_code (hist s); next s [Wrote name (g ++ bs "

fn main() {
" ++ m ++ bs "
}
")]) = Ok (s, [Wrote name (g ++ bs "

fn main() {
" ++ m ++ bs "
}
")], true)). rewrite AA, G. reflexivity.
  - intros w n c L E Nb Sp W. unfold step. rewrite I, firstn_all2 by (rewrite app_length; cbn; lia). rewrite (T _ w n c E Nb).
    change (match spaces_trim w with [] => next s [] | w => if length (watches s) <? 16 then next (set_watches (watches s ++ [w]) s) [] else next s [] end
      = Ok (set_watches (watches s ++ [w]) s, [], true)).
    assert (S0 : spaces_trim w = w).
    { unfold spaces_trim. assert (spaces_left w = w) as ->.
      { destruct w as [|x r]; [reflexivity|]. cbn [spaces_left]. destruct (N.eqb_spec x 32) as [->|]; [exfalso; exact (Sp r eq_refl)|reflexivity]. }
      rewrite E, rev_app_distr. cbn [rev app spaces_left]. destruct (N.eqb_spec c 32) as [->|]; [exfalso; apply Nb; now left|].
      cbn [rev]. now rewrite rev_involutive. }
    rewrite S0. destruct w as [|x r]; [destruct n; discriminate|]. destruct (Nat.ltb_spec (length (watches s)) 16); [reflexivity|lia].
  - intros w n c L E Nb. unfold step. rewrite I, firstn_all2 by (rewrite app_length; cbn; lia). rewrite (T _ w n c E Nb). reflexivity.
  - intros x [<-|[<-|[<-|[]]]]; unfold step; rewrite I; reflexivity.
Qed.
Example C99_commands_partial_ex : Forall block [[bs "let x = 1;"]] /\ parts [[bs "let x = 1;"]] [] (bs "let x = 1; ") /\
  exists n c, bs "x + 1" = n ++ [c] /\ ~ blank c /\ forall r, bs "x + 1" <> 32%N :: r.
Proof.
  splits.
  - constructor; [apply block_one; reflexivity|constructor].
  - apply (parts_stmt (bs "let x = 1;") [] [] [] []); [apply header_false; reflexivity|constructor].
  - exists (bs "x + "), 49%N. splits; [reflexivity|intros [Q|Q]; discriminate|discriminate].
Qed.

(** False of long watch expressions: the buffer for one has 1024 bytes. *)
Theorem C99_watch_refuted : forall is_expr is_void status files home s t w,
  inp s = Null -> braces s = 0%Z -> parens s = 0%Z -> In w (watches s) -> 500 <= length w ->
  plain t -> closed t -> length t <= 1022 ->
  step is_expr is_void status files home s t = UB.
Proof.
  intros is_expr is_void status files home s t w I B P In1 W P1 C1 L1.
  rewrite plain_step, closed_statement by (auto using plain_nonempty). unfold eval. destruct (negb (alive s)); [reflexivity|].
  assert (WT : forall ws, In w ws -> watch_texts ws = UB).
  { induction ws as [|x ws IH]; intros Q; [destruct Q|]. cbn [watch_texts]. destruct (Nat.ltb_spec 1024 (length (watch_text x) + 1)); [reflexivity|].
    destruct Q as [->|Q]; [|now rewrite IH].
    exfalso. unfold watch_text in H. rewrite !app_length in H.
    assert (40 <= length (bs "printf(""\033[90mwatch:") + length (bs " = \033[0m""); print ""{") + length (bs "}""; printf(""\n""); ")) by (apply Nat.leb_le; vm_compute; reflexivity).
    lia. }
  assert (F : full_code is_expr is_void (hist s) t (watches s) = UB).
  { unfold full_code. rewrite get_code_total. cbn [bind]. destruct (code_loop _ _ _ _ _) as (g, m).
    assert (exists x, shown is_expr is_void (hist s) t = Ok x) as (x & ->).
    { unfold shown. destruct (is_header_line t); eauto. destruct (is_expr _); eauto. rewrite get_code_total. cbn [bind].
      destruct (code_loop _ _ _ _ _). destruct (is_void _); eauto. }
    cbn [bind]. destruct (watches s) as [|a ws] eqn:E; [destruct In1|]. rewrite WT by auto. reflexivity. }
  now rewrite F.
Qed.
Example C99_watch_refuted_ex : exists w, 500 <= length w /\ exists s e,
  step (fun _ => false) (fun _ => false) (fun _ => 0%Z) (fun _ => None) false (St [] true Null 0 0 []) (bs ":watch " ++ w) = Ok (s, e, true) /\ In w (watches s).
Proof. exists (repeat 120%N 500). split; [rewrite repeat_length; lia|]. do 2 eexists. split; [vm_compute; reflexivity|]. left. vm_compute. reflexivity. Qed.

(** False of the end of the input: the session goes on for ever. *)
Theorem C99_eof_refuted : forall is_expr is_void status files home s fuel,
  inp s = Null -> braces s = 0%Z -> parens s = 0%Z -> Forall no_nul (hist s) ->
  loop is_expr is_void status files home fuel s [] = Fuel.
Proof.
  intros is_expr is_void status files home s fuel I B P LO. revert s I B P LO. induction fuel as [|n IH]; intros s I B P LO; [reflexivity|].
  cbn [loop]. rewrite B. change (Z.to_nat 0) with 0.
  assert (R : readline (hist s) 0 [] = Ok (Line [], [])).
  { unfold readline. destruct (rel_init (hist s) 0) as (x & -> & (H & _) & _). cbn [bind]. rewrite edit_eq. now rewrite (holds_read _ x H). }
  rewrite R. cbn [bind].
  assert (E : step is_expr is_void status files home s [] = Ok (set_inp Null 0 0 s, [], true)).
  { unfold step. rewrite I. cbn [firstn]. change (trim_right []) with (@nil N). cbn [beq_bytes bs orb].
    unfold statement. rewrite B, P. reflexivity. }
  rewrite E. cbn [bind]. rewrite IH; auto.
Qed.
Example C99_eof_refuted_ex : Forall no_nul (hist (begin true (bs "x
y
") [])).
Proof. vm_compute. repeat constructor; discriminate. Qed.

Print Assumptions C99_code.
Print Assumptions C99_statement_partial.
Print Assumptions C99_twice_refuted.
Print Assumptions C99_second_refuted.
Print Assumptions C99_lines_refuted.
Print Assumptions C99_kept_partial.
Print Assumptions C99_kept_refuted.
Print Assumptions C99_long_refuted.
Print Assumptions C99_header_refuted.
Print Assumptions C99_expression_refuted.
Print Assumptions C99_unknown_refuted.
Print Assumptions C99_init_refuted.
Print Assumptions C99_delete.
Print Assumptions C99_load_partial.
Print Assumptions C99_load_long_refuted.
Print Assumptions C99_unwatch.
Print Assumptions C99_watch_refuted.
Print Assumptions C99_eof_refuted.
Print Assumptions C99_commands_partial.
