(** Errors and warnings *)
From Verif Require Import Common Io_Model Diag_Model Diag_Spec Diag_Proofs.
Local Open Scope nat_scope.

Definition sure (r : report) : Prop := match r with ErrorSuggest _ _ _ => False | _ => True end.
(** C119: the compiler shows every report, in order, up to the first error it does not go on from; each with its file,
    line and column, the line of the source, a caret and the hints.  It counts the warnings and stops exactly at such an
    error. *)
Theorem C119_compiler_partial : forall file src tol (l : list report), Forall (fun r => placed src r /\ fits file src r /\ sure r) l ->
  exists s, run file src (Cfg false false tol false) l clean = Ok s /\ Forall2 (shows file src) (err s) (reached l) /\
    warnings s = length (filter is_warning (reached l)) /\ stopped s = existsb is_panic l /\ told s = [].
Proof.
  intros file src tol l F. set (c := Cfg false false tol false).
  destruct (run_text file src c l eq_refl) with (s := clean) as (s & os & R & E & Fo & T & W & St); [|reflexivity|].
  { eapply Forall_impl; [|exact F]. intros r (P & Fi & Su). splits; auto. now destruct r. }
  destruct (reach_compiler c l eq_refl) as (R1 & R2 & R3). exists s. rewrite R1 in *. splits; auto.
  - cbn [clean err app] in E. now rewrite E.
  - now rewrite St.
  - rewrite T, R3. reflexivity.
Qed.
Print Assumptions C119_compiler_partial.

(** C119: in the editor every error is told, in order, at its line and column counted from 0, and the warnings are not;
    no error ends the server *)
Theorem C119_editor_partial : forall file src (l : list report), Forall (fun r => placed src r /\ fits file src r) l ->
  exists s, run file src (Cfg false false true true) l clean = Ok s /\ stopped s = false /\
    published (told s) = map (fun r => (line (token_of r) - 1, col (token_of r) - 1, col (token_of r), editor_text r)) (filter (fun r => negb (is_warning r)) l).
Proof.
  intros file src l F. set (c := Cfg false false true true).
  destruct (run_text file src c l eq_refl) with (s := clean) as (s & os & R & E & Fo & T & W & St); [|reflexivity|].
  { eapply Forall_impl; [|exact F]. intros r (P & Fi). splits; auto. destruct r; cbn; auto. }
  destruct (reach_editor c l eq_refl eq_refl) as (R1 & R2 & R3). exists s. rewrite R1 in *. splits; auto; [now rewrite St|].
  rewrite T, R3. cbn [clean told app]. unfold published. rewrite map_map. apply map_ext_in. intros r I. apply filter_In in I as [I _].
  rewrite Forall_forall in F. destruct (F r I) as ((a & b & d & e & (_ & _ & _ & _ & _ & _ & L & C)) & _). rewrite L, C. change (0 <? S (lines a)) with true. change (0 <? S (length b)) with true. cbv zeta iota. replace (S (length b) - 1 + 1) with (S (length b)) by lia. reflexivity.
Qed.
Print Assumptions C119_editor_partial.

Definition source : bytes := bs "let a = 1" ++ [10%N] ++ bs "  foo(b)" ++ [10%N] ++ bs "end".
Definition at_b : token := Tok (Some 16) 2 7.
Definition at_a : token := Tok (Some 4) 1 5.
Definition session : list report :=
  [Warn at_a (bs "unused"); ErrorHints at_b (bs "unknown b") [bs "declare it"; bs "or a"]; Panics at_b (bs "stop"); PanicSuggest at_a (bs "again") (Some (bs "x"))].
Example C119_ex : Forall (fun r => placed source r /\ fits (bs "f.zc") source r /\ sure r) session /\ reached session = firstn 3 session /\
  shown (bs "f.zc") (ErrorHints at_b (bs "unknown b") [bs "declare it"]) (bs "  foo(") (bs "b)") =
    concat (map (fun s => bs s ++ [10%N]) ["error: unknown b"; "  --> f.zc:2:7"; "   |"; "2  |   foo(b)"; "   |       ^ here"; "   |"; "   = help: declare it"]%string).
Proof.
  assert (A : forall r, token_of r = at_a -> placed source r).
  { intros r E. exists [], (bs "let "), (bs "a = 1"), ([10%N] ++ bs "  foo(b)" ++ [10%N] ++ bs "end"). rewrite E. unfold stands. splits; try reflexivity; auto; [cbn; intuition discriminate|cbn; intuition discriminate|right; eexists; reflexivity]. }
  assert (B : forall r, token_of r = at_b -> placed source r).
  { intros r E. exists (bs "let a = 1" ++ [10%N]), (bs "  foo("), (bs "b)"), ([10%N] ++ bs "end"). rewrite E. unfold stands. splits; try reflexivity; [right; eexists; reflexivity|cbn; intuition discriminate|cbn; intuition discriminate|right; eexists; reflexivity]. }
  assert (S : plain source /\ plain (bs "f.zc")) by (split; apply plain_lit; reflexivity).
  assert (P : forall s, forallb (fun c => negb (c =? 27)%N) s = true -> plain s) by apply plain_lit.
  splits; try reflexivity. unfold session.
  apply Forall_cons; [|apply Forall_cons; [|apply Forall_cons; [|apply Forall_cons; [|apply Forall_nil]]]];
    (split; [first [apply A; reflexivity | apply B; reflexivity]|split; [|exact I]]); unfold fits; cbn [message_of hints_of editor_text];
    (split; [apply S|split; [apply S|split; [apply P; reflexivity|]]]).
  - splits; try apply Forall_nil; cbn; lia.
  - splits.
    + apply Forall_cons; [apply P; reflexivity|]. apply Forall_cons; [apply P; reflexivity|apply Forall_nil].
    + apply Forall_cons; [discriminate|]. apply Forall_cons; [discriminate|apply Forall_nil].
    + cbn; lia.
    + discriminate.
    + cbn; lia.
  - splits; try apply Forall_nil; cbn; lia.
  - splits.
    + apply Forall_cons; [apply P; reflexivity|apply Forall_nil].
    + apply Forall_cons; [discriminate|apply Forall_nil].
    + cbn; lia.
    + cbn; lia.
Qed.

(** C119: in the first 999 lines the caret is exactly below the first character of the token *)
Lemma digits_line f n c : (0 <= n)%Z -> In c (dec_digits f n) -> (48 <= c)%N.
Proof.
  revert n. induction f as [|f IH]; intros n P; cbn [dec_digits]; [intros []|]. destruct (n <? 10)%Z eqn:E.
  - intros [<-|[]]. lia.
  - intros H. apply in_app_or in H as [H|[<-|[]]]; [eapply IH; [|exact H]; apply Z.div_pos; lia|]. pose proof (Z.mod_pos_bound n 10). lia.
Qed.
Lemma number_line n : ~ In 10%N (number n).
Proof. unfold number, dec_int. destruct (Z.ltb_spec (Z.of_nat n) 0); [lia|]. intros H1. apply digits_line in H1; lia. Qed.
Lemma spaces_line n : ~ In 10%N (spaces n).
Proof. intros H. apply repeat_spec in H. discriminate. Qed.
Definition below (s u rest v : bytes) : Prop :=
  exists a b, s = a ++ end_of_line ++ u ++ rest ++ end_of_line ++ v ++ bs "^ here" ++ end_of_line ++ b /\ ~ In 10%N u /\ ~ In 10%N v.
Lemma shown_below file r left rest : ~ In 10%N left ->
  below (shown file r left rest) (number (line (token_of r)) ++ spaces (3 - length (number (line (token_of r)))) ++ bs "| " ++ left) rest (bs "   | " ++ spaces (length left)).
Proof.
  intros Nl. set (t := token_of r).
  exists (level r ++ bs ": " ++ message_of r ++ end_of_line ++ bs "  --> " ++ file ++ bs ":" ++ number (line t) ++ bs ":" ++ number (col t) ++ end_of_line ++ bs "   |"), (bars r ++ flat_map (hint_text r) (hints_of r)).
  splits.
  - unfold shown. fold t. rewrite <- !app_assoc. reflexivity.
  - rewrite !in_app_iff. intros [H|[H|[H|H]]]; [now apply number_line in H|now apply spaces_line in H|cbn in H; intuition discriminate|contradiction].
  - rewrite in_app_iff. intros [H|H]; [cbn in H; intuition discriminate|now apply spaces_line in H].
Qed.
Theorem C119_caret : forall file src r above left rest under, stands src (token_of r) above left rest under -> line (token_of r) < 1000 ->
  exists u v, below (shown file r left rest) (u ++ left) rest v /\ length (u ++ left) = length v.
Proof.
  intros file src r above left rest under (_ & _ & Nl & _) L. exists (number (line (token_of r)) ++ spaces (3 - length (number (line (token_of r)))) ++ bs "| "), (bs "   | " ++ spaces (length left)).
  split; [rewrite <- !app_assoc; apply shown_below; exact Nl|].
  rewrite !app_length. unfold spaces. rewrite !repeat_length. pose proof (number_short _ L). change (length (bs "| ")) with 2. change (length (bs "   | ")) with 5. lia.
Qed.
Print Assumptions C119_caret.
(** C119, refuted: from line 1000 on it is to the left of it; behind a tab it is to the left of it too *)
Theorem C119_thousand_refuted : forall file src r above left rest under, stands src (token_of r) above left rest under -> 1000 <= line (token_of r) ->
  exists u v, below (shown file r left rest) (u ++ left) rest v /\ length v < length (u ++ left).
Proof.
  intros file src r above left rest under (_ & _ & Nl & _) L. exists (number (line (token_of r)) ++ spaces (3 - length (number (line (token_of r)))) ++ bs "| "), (bs "   | " ++ spaces (length left)).
  split; [rewrite <- !app_assoc; apply shown_below; exact Nl|].
  rewrite !app_length. unfold spaces. rewrite !repeat_length. pose proof (number_long _ L). change (length (bs "| ")) with 2. change (length (bs "   | ")) with 5. lia.
Qed.
Print Assumptions C119_thousand_refuted.
Lemma lines_n n : lines (repeat 10%N n) = n.
Proof. unfold lines. induction n as [|n IH]; [reflexivity|]. cbn [repeat filter]. change (10 =? 10)%N with true. cbn [length]. now rewrite IH. Qed.
Example C119_thousand_ex : exists src r above left rest under, stands src (token_of r) above left rest under /\ 1000 <= line (token_of r) /\ left <> [].
Proof.
  exists (repeat 10%N 1200 ++ bs "ab" ++ [] ++ []), (Error (Tok (Some (length (repeat 10%N 1200 ++ bs "a"))) (S (lines (repeat 10%N 1200))) 2) []), (repeat 10%N 1200), (bs "a"), (bs "b"), [].
  unfold stands. cbn [token_of line col start]. rewrite lines_n. splits; try reflexivity; auto; try lia; try discriminate.
  - right. exists (repeat 10%N 1199). change 1200 with (S 1199). generalize 1199. clear. intros n. apply (repeat_cons n 10%N).
  - cbn. intuition discriminate.
  - cbn. intuition discriminate.
Qed.
(** columns of a terminal *)
Definition column (s : bytes) : nat := fold_left (fun n c => if (c =? 9)%N then n - n mod 8 + 8 else S n) s 0.
Theorem C119_tab_refuted : exists src r rest v, stands src (token_of r) [] [9%N] rest [] /\
  below (shown (bs "f") r [9%N] rest) (bs "1  | " ++ [9%N]) rest v /\ column v < column (bs "1  | " ++ [9%N]).
Proof.
  exists (9%N :: bs "b"), (Error (Tok (Some 1) 1 2) (bs "m")), (bs "b"), (bs "   |  "). splits.
  - unfold stands. splits; try reflexivity; auto; cbn; intuition discriminate.
  - exact (shown_below (bs "f") (Error (Tok (Some 1) 1 2) (bs "m")) [9%N] (bs "b") ltac:(cbn; intuition discriminate)).
  - apply Nat.ltb_lt. reflexivity.
Qed.
Print Assumptions C119_tab_refuted.

(** C119: quiet takes away the warnings, and nothing else *)
Theorem C119_quiet : forall file src j tol cb r s,
  (is_warning r = true -> step file src (Cfg j true tol cb) r s = Ok s) /\
  (is_warning r = false -> step file src (Cfg j true tol cb) r s = step file src (Cfg j false tol cb) r s).
Proof. intros. split; intros H; destruct r; try discriminate; reflexivity. Qed.
Print Assumptions C119_quiet.

(** C119: with --json every report is one object with the file, the line, the column, the message and the hints *)
Theorem C119_json_partial : forall file src tol cb r s, length (message_of r) < 1024 -> Forall (fun h => h <> []) (hints_of r) -> total (hints_of r) < 4096 ->
  exists s', step file src (Cfg true false tol cb) r s = Ok s' /\
    err s' = err s ++ [Obj file (line (token_of r)) (col (token_of r)) (level r) (message_of r) (advice_of r)] /\
    stopped s' = (stopped s || (is_panic r && negb (tol && cb)))%bool.
Proof.
  intros file src tol cb r s L N T. destruct (step_json file src (Cfg true false tol cb) r s eq_refl) as (m & E); [destruct r; cbn; auto|unfold brief; splits; auto|].
  eexists. split; [exact E|]. splits; reflexivity.
Qed.
Print Assumptions C119_json_partial.
Example C119_json_ex : let r := ErrorHints at_b (bs "unknown b") [bs "declare it"; bs "or a"] in
  length (message_of r) < 1024 /\ Forall (fun h => h <> []) (hints_of r) /\ total (hints_of r) < 4096 /\ advice_of r = Some (bs "declare it" ++ [10%N] ++ bs "or a").
Proof. cbn zeta. splits; [cbn; lia| |cbn; lia|reflexivity]. apply Forall_cons; [discriminate|]. apply Forall_cons; [discriminate|apply Forall_nil]. Qed.
(** C119, refuted: there warnings are not counted, and long messages are cut *)
Theorem C119_json_count_refuted : forall file src q tol cb l s s', Forall (fun r => is_warning r = true) l -> run file src (Cfg true q tol cb) l s = Ok s' -> warnings s' = warnings s.
Proof.
  intros file src q tol cb l s s' F. revert s. induction F as [|r l W _ IH]; intros s; cbn [run]; [now intros [= <-]|]. destruct (stopped s); [now intros [= <-]|].
  assert (E : exists s1, step file src (Cfg true q tol cb) r s = Ok s1 /\ warnings s1 = warnings s).
  { destruct r; try discriminate; destruct q; eexists; split; reflexivity. }
  destruct E as (s1 & E1 & E2). rewrite E1. cbn [bind]. intros R. rewrite <- E2. now apply IH.
Qed.
Print Assumptions C119_json_count_refuted.
Theorem C119_long_refuted : forall file src tol t m s, 1024 <= length m ->
  exists s', step file src (Cfg true false tol false) (Panics t m) s = Ok s' /\ err s' = err s ++ [Obj file (line t) (col t) (bs "error") (firstn 1023 m) None] /\ firstn 1023 m <> m.
Proof.
  intros file src tol t m s L. exists (stop (say (emit file (bs "error") t (cut 1024 m) None) s)). splits.
  - cbn [step]. unfold panic_at, give_up. cbn [json tolerant callback]. now rewrite andb_false_r.
  - reflexivity.
  - intros E. apply (f_equal (@length N)) in E. rewrite firstn_length in E. lia.
Qed.
Print Assumptions C119_long_refuted.

(** C119, refuted: undefined are an error with a suggestion in the compiler, a token without a place given to an error
    that stops, and hints of 4095 bytes with one more behind them *)
Theorem C119_suggestion_refuted : forall file src q tol t m g s, placed src (ErrorSuggest t m g) -> step file src (Cfg false q tol false) (ErrorSuggest t m g) s = UB.
Proof.
  intros file src q tol t m g s (a & b & c & d & P). cbn [step]. unfold error_suggest. cbn [json callback]. erewrite context_if_ok; [|exact P|eapply context_ok; exact P]. reflexivity.
Qed.
Print Assumptions C119_suggestion_refuted.
Theorem C119_nowhere_refuted : forall file src q tol cb t m s, start t = None ->
  step file src (Cfg false q tol cb) (Panics t m) s = UB /\ exists s', step file src (Cfg false q tol cb) (Error t m) s = Ok s'.
Proof. intros file src q tol cb t m s E. split; cbn [step]; [unfold panic_at, context|unfold error_at, context_if]; cbn [json]; rewrite E; [reflexivity|]. eexists. reflexivity. Qed.
Print Assumptions C119_nowhere_refuted.
Theorem C119_hints_refuted : forall file src c t m a b s, 4095 <= length a -> step file src c (ErrorHints t m [a; b]) s = UB.
Proof.
  intros file src c t m a b s L. cbn [step]. unfold error_hints.
  assert (E : combined [a; b] [] = UB); [|now rewrite E].
  cbn [combined]. cbv zeta. change (4096 <=? length (@nil N)) with false. cbv iota. change (4096 - length (@nil N) - 1) with 4095. cbn [app].
  assert (La : length (firstn 4095 a) = 4095) by (rewrite firstn_length; lia). set (x := firstn 4095 a) in *. destruct x as [|d x]; [discriminate|]. cbv iota. rewrite app_length, La. reflexivity.
Qed.
Print Assumptions C119_hints_refuted.
Example C119_hints_ex : 4095 <= length (repeat 97%N 4095).
Proof. rewrite repeat_length. lia. Qed.
(** C119, refuted: a token whose column does not fit its place reads in front of the text *)
Theorem C119_before_refuted : forall file src tol cb r p s, start (token_of r) = Some p -> p < col (token_of r) - 1 -> total (hints_of r) < 4096 -> Forall (fun h => h <> []) (hints_of r) ->
  step file src (Cfg false false tol cb) r s = UB.
Proof.
  intros file src tol cb r p s St L Tot Nh. assert (C : forall k, context src k (token_of r) = UB).
  { intros k. unfold context. rewrite St. apply Nat.ltb_lt in L. now rewrite L. }
  assert (Ci : forall k a, context_if src k (token_of r) a = UB) by (intros k a; unfold context_if; rewrite St, C; reflexivity).
  destruct r as [t m|t m g|t m|t m g|t m hs|t m|t m g|t m hs]; cbn [token_of hints_of step] in *;
    try (unfold warn_at, warn_suggest, panic_at, panic_suggest, panic_hints, error_at, error_suggest; cbn [quiet json]; rewrite ?C, ?Ci; reflexivity).
  unfold error_hints. destruct hs as [|h hs]; [cbn [combined bind json]; now rewrite Ci|]. apply Forall_inv in Nh. rewrite combined_first by assumption. cbn [bind json]. now rewrite Ci.
Qed.
Print Assumptions C119_before_refuted.
Example C119_before_witness : let r := Warn (Tok (Some 2) 1 7) (bs "m") in start (token_of r) = Some 2 /\ 2 < col (token_of r) - 1 /\ total (hints_of r) < 4096.
Proof. cbn. splits; [reflexivity|lia|lia]. Qed.
