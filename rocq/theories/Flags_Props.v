(** Compiler flags: what the user gives is what the C compiler gets; what a source may do
    to the build. *)
From Verif Require Import Common Flags_Model Flags_Spec Flags_Proofs.
Local Open Scope nat_scope.

(** C40. Whatever the flags of the command line (each a prefix like -I and a value, or a
    prefix alone) and of the build directives: if they have no double quote and no white
    space but blanks in values and directives, and fit the buffer, then the C compiler
    gets exactly them, one argument each, in order. *)
Theorem C40_round_trip_partial : forall max line fs,
  (N.of_nat max < 2 ^ 64)%N -> Forall cmdline_ok line -> Forall flag_ok fs ->
  needs (map cmdline_cost line ++ map cost fs) <= max ->
  exists d, main_flags [] max line = Ok d
  /\ arg_list_add_from_string (fold_left (fun d f => append_flag d max f) fs d) = Ok (map argument line ++ fs).
Proof.
  intros max line fs M L F N.
  assert (T : Forall tok_ok (map tok_of line)) by (apply Forall_map; eapply Forall_impl; [|exact L]; intros; now apply tok_of_ok).
  assert (C : map tcost (map tok_of line) = map cmdline_cost line).
  { rewrite map_map. apply map_ext. intros [p [v|]]; unfold tcost, cmdline_cost, tok_of, cost; cbn [fst snd]; [reflexivity|].
    cbn [length]. destruct (in_dec N.eq_dec 32%N []) as [[]|_]. reflexivity. }
  pose proof N as N'. rewrite needs_app in N'.
  exists (joined (map tok_of line)). split.
  - apply (main_all line [] max M); [constructor|assumption|]. cbn [map app]. lia.
  - rewrite append_all; [|assumption|assumption|now rewrite C]. rewrite split_joined.
    + now rewrite map_app, map_tok_of, map_tok_nil.
    + apply Forall_app. split; [assumption|now apply toks_nil_ok].
Qed.
Print Assumptions C40_round_trip_partial.

Example C40_example :
  let line := [(bs "-I", Some (bs "my include")); (bs "-g", None); (bs "-D", Some (bs "N=1"))] in
  let fs := [bs "-O2"; bs "-DS=a b"] in
  Forall cmdline_ok line /\ Forall flag_ok fs /\ needs (map cmdline_cost line ++ map cost fs) <= 1024
  /\ map argument line ++ fs = [bs "-Imy include"; bs "-g"; bs "-DN=1"; bs "-O2"; bs "-DS=a b"].
Proof.
  cbv zeta. split; [|split; [|split; [vm_compute; lia|reflexivity]]].
  - repeat (apply Forall_cons || apply Forall_nil); unfold cmdline_ok; repeat apply conj; try discriminate; try (cbn; lia);
      try (unfold clean, white; cbn; repeat constructor; try discriminate; cbn; intuition discriminate);
      try (unfold has_blank; cbn; intuition discriminate); exact I.
  - repeat (apply Forall_cons || apply Forall_nil); unfold flag_ok; repeat apply conj; try discriminate; try (cbn; lia);
      try (unfold clean, white; cbn; repeat constructor; try discriminate; cbn; intuition discriminate).
Qed.

(** Not so for every flag: double quotes are lost, ... *)
Theorem C40_quotes_refuted : forall f g, flag_ok (f ++ g) -> ~ has_blank (f ++ g) -> 
  arg_list_add_from_string (append_flag [] 1024 (f ++ 34%N :: g)) <> Ok [f ++ 34%N :: g].
Proof.
  intros f g OK NB E. revert E. unfold append_flag. cbn [length]. change (0 <? 0) with false. cbv iota.
  assert (HS : has_space (f ++ 34%N :: g) = false).
  { apply has_space_false. intros X. apply NB. apply in_app_or in X. apply in_or_app. destruct X as [X|[X|X]]; [tauto|discriminate|tauto]. }
  rewrite HS. destruct (1024 <? 0 + (length (f ++ 34%N :: g) + 0 + 0) + 1); [cbn; discriminate|].
  unfold arg_list_add_from_string. intros E.
  assert (Q : forall b s room a q, read_arg b room s = (a, q) -> ~ In 34%N a).
  { clear. intros b s. revert b. induction s as [|c s IH]; intros b room a q E; cbn [read_arg] in E; [injection E as <- <-; intros []|].
    destruct (b || negb (isspace c)); [|injection E as <- <-; intros []].
    destruct (N.eqb_spec c 34) as [->|NE]; [eapply IH; exact E|]. destruct room as [|room]; [eapply IH; exact E|].
    destruct (read_arg b room s) as [a' q'] eqn:R. injection E as <- <-. intros [X|X]; [congruence|]. eapply IH; eassumption. }
  cbn [split_loop] in E. destruct (skip_space (f ++ 34%N :: g)) as [|c s] eqn:SS; [discriminate|].
  destruct (read_arg false 4095 (c :: s)) as [a q] eqn:R. destruct (split_loop _ _) as [l| | |]; try discriminate.
  cbn [bind] in E. injection E as E _. apply Q in R. apply R. rewrite E. apply in_or_app. right. now left.
Qed.
Print Assumptions C40_quotes_refuted.
(** ... a tab splits a flag, ... *)
Theorem C40_tab_refuted : arg_list_add_from_string (append_flag [] 1024 (bs "-DA" ++ [9%N] ++ bs "B")) = Ok [bs "-DA"; bs "B"].
Proof. vm_compute. reflexivity. Qed.
Print Assumptions C40_tab_refuted.
(** ... a flag given whole on the command line is split at its blanks, ... *)
Theorem C40_blank_refuted :
  exists d, main_append_flag [] 4096 (bs "-fplugin=a b") None = Ok d /\ arg_list_add_from_string d = Ok [bs "-fplugin=a"; bs "b"].
Proof. eexists. split; vm_compute; reflexivity. Qed.
Print Assumptions C40_blank_refuted.
(** ... a directive that gives two flags gives one argument, as does what pkg-config
    prints, ... *)
Theorem C40_several_refuted : forall f g,
  flag_ok f -> flag_ok g -> ~ has_blank f -> ~ has_blank g -> length f + length g <= 1000 ->
  arg_list_add_from_string (append_flag [] 1024 (f ++ 32%N :: g)) = Ok [f ++ 32%N :: g].
Proof.
  intros f g (F1 & F2 & F3) (G1 & G2 & G3) BF BG L.
  assert (OK : flag_ok (f ++ 32%N :: g)).
  { repeat split.
    - intros E. apply app_eq_nil in E. destruct E. discriminate.
    - apply Forall_app. split; [assumption|]. constructor; [split; [discriminate|unfold white; cbn; intuition discriminate]|assumption].
    - rewrite app_length. cbn [length]. lia. }
  destruct (C40_round_trip_partial 1024 [] [f ++ 32%N :: g]) as (d & E & K); [reflexivity|apply Forall_nil|apply Forall_cons; [assumption|apply Forall_nil]| |].
  - unfold cost, needs. cbn [map app fold_right]. rewrite app_length. cbn [length]. destruct (in_dec _ _ _); lia.
  - cbn [main_flags] in E. injection E as <-. exact K.
Qed.
Print Assumptions C40_several_refuted.
(** ... a flag that does not fit is dropped, whatever it is, ... *)
Theorem C40_dropped_refuted : forall d f, 1024 < length d + length f + 1 -> append_flag d 1024 f = d.
Proof.
  intros d f L. unfold append_flag. 
  destruct (Nat.ltb_spec 1024 (length d + (length f + (if has_space f then 2 else 0) + (if 0 <? length d then 1 else 0)) + 1)) as [_|X]; [reflexivity|].
  exfalso. destruct (has_space f), (0 <? length d); lia.
Qed.
Print Assumptions C40_dropped_refuted.
(** ... and when the command line has filled the buffer to its last byte, the next flag is
    written past its end, ... *)
Theorem C40_overflow_refuted : forall max d c prefix val,
  (N.of_nat max < 2 ^ 63)%N -> length d + 2 = max -> c <> 32%N -> 
  0 < length prefix -> (N.of_nat (length prefix) < 2 ^ 63)%N -> main_append_flag (d ++ [c]) max prefix val = UB.
Proof.
  intros max d c prefix val M L NC P PM. unfold main_append_flag. rewrite app_length. cbn [length].
  replace (length d + 1 - 1) with (length d) by lia. rewrite nth_middle. destruct (N.eqb_spec c 32); [contradiction|].
  destruct (Nat.ltb_spec 0 (length d + 1)); [|lia]. cbn [andb negb].
  assert (E1 : strncat (d ++ [c]) max (length d + 1) [32%N] = Ok (d ++ [c])).
  { unfold strncat. replace ((N.of_nat max + size_max - N.of_nat (length d + 1) - 1) mod size_max)%N with 0%N.
    - cbn [N.min N.compare length N.of_nat N.to_nat firstn]. rewrite app_nil_r, app_length. cbn [length].
      destruct (Nat.ltb_spec (length d + 1) max); [reflexivity|lia].
    - replace (N.of_nat max + size_max - N.of_nat (length d + 1) - 1)%N with size_max by lia. reflexivity. }
  rewrite E1. cbn [bind].
  assert (E2 : strncat (d ++ [c]) max (length d + 1 + 1) prefix = UB).
  { unfold strncat. replace ((N.of_nat max + size_max - N.of_nat (length d + 1 + 1) - 1) mod size_max)%N with (size_max - 1)%N.
    - rewrite N.min_r by (change (2 ^ 63)%N with 9223372036854775808%N in PM; unfold size_max; change (2 ^ 64)%N with 18446744073709551616%N; lia). rewrite Nat2N.id, firstn_all, !app_length. cbn [length].
      destruct (Nat.ltb_spec (length d + 1 + length prefix) max); [lia|reflexivity].
    - replace (N.of_nat max + size_max - N.of_nat (length d + 1 + 1) - 1)%N with (size_max - 1)%N by lia. reflexivity. }
  now rewrite E2.
Qed.
Print Assumptions C40_overflow_refuted.
(** ... which a user can bring about with one long path and any flag after it. *)
Theorem C40_overflow_reachable_refuted : forall max v prefix val,
  3 < max -> (N.of_nat max < 2 ^ 63)%N -> max <= length v -> (N.of_nat (length v) < 2 ^ 63)%N -> ~ has_blank v ->
  0 < length prefix -> (N.of_nat (length prefix) < 2 ^ 63)%N ->
  main_flags [] max [(bs "-I", Some v); (prefix, val)] = UB.
Proof.
  intros max v prefix val M3 M LV VM NB P PM. cbn [main_flags].
  assert (B : (2 ^ 63 < size_max)%N) by reflexivity.
  assert (E : main_append_flag [] max (bs "-I") (Some v) = Ok (bs "-I" ++ firstn (max - 3) v)).
  { unfold main_append_flag. cbn [length]. change (0 <? 0) with false. cbn [andb bind].
    rewrite strncat_fits; [|lia|reflexivity|cbn; lia]. cbn [bind app].
    apply has_space_false in NB. rewrite NB. cbn [bind]. unfold strncat. change (length (bs "-I")) with 2.
    replace ((N.of_nat max + size_max - N.of_nat 2 - 1) mod size_max)%N with (N.of_nat (max - 3)).
    - rewrite N.min_l by lia. rewrite Nat2N.id. rewrite app_length, firstn_length. change (length (bs "-I")) with 2.
      destruct (Nat.ltb_spec (2 + Nat.min (max - 3) (length v)) max); [reflexivity|lia].
    - replace (N.of_nat max + size_max - N.of_nat 2 - 1)%N with (N.of_nat (max - 3) + 1 * size_max)%N by lia.
      rewrite N.mod_add by discriminate. rewrite N.mod_small by lia. reflexivity. }
  rewrite E. cbn [bind].
  destruct (exists_last (l := firstn (max - 3) v)) as (a & c & EA).
  { destruct v; [cbn in LV; lia|]. destruct (max - 3) eqn:EM; [lia|]. discriminate. }
  assert (LA : length a + 1 = max - 3).
  { apply (f_equal (@length N)) in EA. rewrite firstn_length, app_length in EA. cbn [length] in EA. lia. }
  rewrite EA. rewrite app_assoc. rewrite C40_overflow_refuted; auto.
  - rewrite app_length. change (length (bs "-I")) with 2. lia.
  - intros ->. apply NB. unfold has_blank. rewrite <- (firstn_skipn (max - 3) v). rewrite EA. apply in_or_app. left. apply in_or_app. right. now left.
Qed.
Print Assumptions C40_overflow_reachable_refuted.

(** C41. Whatever the source, the environment, the system and the output of pkg-config:
    reading the build directives ends, and every command given to the shell is pkg-config
    with one option and names made of letters, digits, '-', '_', '.' and blanks. *)
Theorem C41_shell : forall getenv os_active first_line src,
  exists events, scan_build_directives getenv os_active first_line src = Ok events
  /\ forall cmd, In (EShell cmd) events -> harmless cmd.
Proof. intros. apply scan_any. lia. Qed.
Print Assumptions C41_shell.
(** A source with no line that begins with //> has no effect on the build. *)
Theorem C41_only_directives : forall getenv os_active first_line lines,
  Forall (fun t => ~ In 10%N t /\ ~ (exists r, t = bs "//>" ++ r)) lines ->
  scan_build_directives getenv os_active first_line (flat_map (fun t => t ++ [10%N]) lines) = Ok [].
Proof.
  intros g o f lines F. pose proof (scan_source g o f (map Code lines)) as S.
  replace (source (map Code lines)) with (flat_map (fun t => t ++ [10%N]) lines) in S.
  - rewrite S.
    + f_equal. clear. induction lines; [reflexivity|assumption].
    + apply Forall_map. exact F.
  - unfold source. clear. induction lines as [|t l IH]; [reflexivity|]. cbn [map flat_map show_line]. now rewrite IH.
Qed.
Print Assumptions C41_only_directives.
Example C41_example :
  scan_build_directives (fun _ => None) (fun _ => true) (fun _ => Some (bs "-lz")) (bs "fn main() {}
//> shell: rm -rf /
//> pkg-config: zlib; rm x
//> pkg-config: zlib
")
  = Ok [EWarn; EWarn; EShell (bs "pkg-config --cflags  zlib"); ECflag (bs "-lz"); EShell (bs "pkg-config --libs  zlib"); ELink (bs "-lz")].
Proof. vm_compute. reflexivity. Qed.

(** C58. Whatever the source, a mix of code and of link, cflags, include, lib and define
    directives, some for one system only: the C compiler gets exactly their flags, one
    argument each, in the order of the source, if they fit and their values have no '$',
    no double quote and no white space but blanks. *)
Theorem C58_directives_partial : forall getenv os_active first_line lines,
  Forall line_ok lines ->
  needs (map cost (link_args os_active lines)) <= 1024 -> needs (map cost (c_args os_active lines)) <= 1024 ->
  exists events, scan_build_directives getenv os_active first_line (source lines) = Ok events
  /\ arg_list_add_from_string (link_flags [] events) = Ok (link_args os_active lines)
  /\ arg_list_add_from_string (c_flags [] events) = Ok (c_args os_active lines).
Proof.
  intros g o f lines F L C. exists (events o lines). split; [now apply scan_source|].
  split; [rewrite link_events; pose proof (append_all (link_args o lines) [] 1024) as A; pose proof (link_args_ok o lines F) as K
         |rewrite c_events; pose proof (append_all (c_args o lines) [] 1024) as A; pose proof (c_args_ok o lines F) as K];
    cbn [map app joined] in A; rewrite A by (auto; constructor); rewrite split_joined by (now apply toks_nil_ok); now rewrite map_tok_nil.
Qed.
Print Assumptions C58_directives_partial.
Example C58_example :
  let here := beq_bytes (bs "linux") in
  let lines := [Directive None KLink (bs "-lm"); Code (bs "fn main() {"); Directive (Some (bs "windows")) KLink (bs "-lws2");
                Directive (Some (bs "linux")) KLib (bs "my libs"); Directive None KDefine (bs "X=1"); Code (bs "}")] in
  Forall line_ok lines /\ link_args here lines = [bs "-lm"; bs "-Lmy libs"] /\ c_args here lines = [bs "-DX=1"].
Proof.
  cbv zeta. split; [|split; reflexivity].
  assert (V : forall v, v = bs "-lm" \/ v = bs "-lws2" \/ v = bs "my libs" \/ v = bs "X=1" -> value_ok v).
  { intros v [->|[->|[->| ->]]]; (repeat apply conj; [discriminate|unfold clean, white; cbn; repeat constructor; try discriminate; cbn; intuition discriminate|cbn; intuition discriminate|intros r; discriminate|cbn; lia]). }
  repeat apply Forall_cons; try apply Forall_nil; try (split; [apply V; tauto|cbn; auto]);
    (split; [cbn; intuition discriminate|intros (r & E); discriminate]).
Qed.
(** A directive is not read only where a comment may be: a line of a multi-line string
    that begins with //> is one as well. *)
Theorem C58_in_string_refuted : forall getenv first_line,
  scan_build_directives getenv (fun _ => true) first_line (bs "let help = ""Write
//> link: -lm
in your file"";
") = Ok [ELink (bs "-lm")].
Proof. intros. vm_compute. reflexivity. Qed.
Print Assumptions C58_in_string_refuted.
(** And the flag a framework directive gives is one argument where the compiler wants
    two. *)
Theorem C58_framework_refuted : forall getenv first_line,
  exists events, scan_build_directives getenv (fun _ => true) first_line (bs "//> framework: Cocoa
") = Ok events /\ arg_list_add_from_string (link_flags [] events) = Ok [bs "-framework Cocoa"].
Proof. intros. eexists. split; vm_compute; reflexivity. Qed.
Print Assumptions C58_framework_refuted.

Section Env.
Variable getenv : bytes -> option bytes.
Lemma expand_lit t : forall s fuel rem, ~ In 36%N t -> length t < fuel -> length t < rem ->
  expand_env_vars getenv fuel rem (t ++ s) = t ++ expand_env_vars getenv (fuel - length t) (rem - length t) s.
Proof.
  induction t as [|c t IH]; intros s fuel rem N F R; cbn [length app].
  - now rewrite !Nat.sub_0_r.
  - cbn [length] in *. destruct fuel as [|fuel]; [lia|]. destruct rem as [|rem]; [lia|]. cbn [expand_env_vars].
    assert (P : is_prefix [36; 123]%N (c :: t ++ s) = false).
    { cbn [is_prefix]. destruct (N.eqb_spec 36 c) as [<-|]; [exfalso; apply N; now left|reflexivity]. }
    rewrite P, IH; [reflexivity| |lia|lia]. intros X. apply N. now right.
Qed.
Lemma index_of_app c a s : ~ In c a -> index_of c (a ++ c :: s) = Some (length a).
Proof.
  induction a as [|x a IH]; intros N; cbn [app index_of length].
  - now rewrite N.eqb_refl.
  - destruct (N.eqb_spec x c) as [->|]; [exfalso; apply N; now left|]. rewrite IH; [reflexivity|]. intros X. apply N. now right.
Qed.
Lemma expand_parts ps : forall fuel rem, Forall vpart_ok ps ->
  length (flat_map vtext ps) < fuel -> length (flat_map (vmeaning getenv) ps) < rem ->
  expand_env_vars getenv fuel rem (flat_map vtext ps) = flat_map (vmeaning getenv) ps.
Proof.
  induction ps as [|p ps IH]; intros fuel rem OK F R.
  - cbn. destruct fuel; [reflexivity|]. now destruct rem.
  - inversion OK as [|? ? OP OPS]; subst. cbn [flat_map] in *. rewrite !app_length in *. destruct p as [t|n]; cbn [vtext vmeaning vpart_ok] in *.
    + rewrite expand_lit by (auto; lia). rewrite IH; auto; lia.
    + destruct OP as (N1 & N2 & L). change (bs "${") with [36; 123]%N in *. change (bs "}") with [125]%N in *.
      rewrite !app_length in F. cbn [length] in F.
      destruct fuel as [|fuel]; [lia|]. destruct rem as [|rem]; [lia|].
      change (([36; 123]%N ++ n ++ [125]%N) ++ flat_map vtext ps) with (36%N :: 123%N :: (n ++ [125]%N) ++ flat_map vtext ps).
      rewrite <- (app_assoc n). cbn [app]. cbn [expand_env_vars].
      change (is_prefix [36; 123]%N (36%N :: 123%N :: n ++ 125%N :: flat_map vtext ps)) with true. cbn iota.
      cbn [skipn]. rewrite index_of_app by assumption. destruct (Nat.ltb_spec (length n) 255); [|lia].
      rewrite firstn_app, Nat.sub_diag, firstn_O, firstn_all, app_nil_r.
      destruct (getenv n) as [x|].
      * destruct (Nat.ltb_spec (length x) (S rem)); [|lia].
        replace (length n + 3) with (S (S (length n + 1))) by lia. cbn [skipn].
        rewrite skipn_app, (skipn_all2 n) by lia. replace (length n + 1 - length n) with 1 by lia. cbn [app skipn].
        rewrite IH; auto; lia.
      * rewrite !app_length in R. cbn [length] in R.
        change (36%N :: expand_env_vars getenv fuel rem (123%N :: n ++ 125%N :: flat_map vtext ps) =
                36%N :: 123%N :: (n ++ [125]%N) ++ flat_map (vmeaning getenv) ps). f_equal.
        replace (123%N :: n ++ 125%N :: flat_map vtext ps) with ((123%N :: n ++ [125]%N) ++ flat_map vtext ps)
          by (cbn [app]; now rewrite <- app_assoc).
        rewrite expand_lit.
        -- cbn [app]. rewrite IH; auto; cbn [length]; rewrite app_length; cbn [length]; lia.
        -- intros [X|X]; [discriminate|]. apply in_app_or in X as [X|[X|[]]]; [now apply N1|discriminate].
        -- cbn [length]. rewrite app_length. cbn [length]. lia.
        -- cbn [length]. rewrite app_length. cbn [length]. lia.
Qed.
End Env.

(** ${NAME} in a directive's value is replaced by the variable's value, once, and kept if
    the variable is not set. *)
Theorem C58_environment_partial : forall getenv os_active first_line ps,
  Forall vpart_ok ps -> ~ In 10%N (flat_map vtext ps) -> ~ In 13%N (flat_map vtext ps) ->
  length (flat_map vtext ps) <= 2000 -> length (flat_map (vmeaning getenv) ps) <= 2000 ->
  (forall r, flat_map (vmeaning getenv) ps <> 32%N :: r) ->
  scan_build_directives getenv os_active first_line (bs "//> link: " ++ flat_map vtext ps ++ [10%N]) =
  Ok [ELink (flat_map (vmeaning getenv) ps)].
Proof.
  intros g o f ps OK N10 N13 L1 L2 NB. set (T := flat_map vtext ps) in *. set (M := flat_map (vmeaning g) ps) in *.
  unfold scan_build_directives.
  assert (CL : cut_line (bs "//> link: " ++ T ++ [10%N]) = (bs "//> link: " ++ T, [])).
  { assert (G : forall t, ~ In 10%N t -> cut_line (t ++ [10%N]) = (t, [])).
    { induction t as [|c t IH]; intros N; [reflexivity|]. cbn [app cut_line].
      destruct (N.eqb_spec c 10) as [->|]; [exfalso; apply N; now left|]. rewrite IH; [reflexivity|]. intros X. apply N. now right. }
    rewrite app_assoc. apply G. intros X. apply in_app_or in X as [X|X]; [cbn in X; intuition discriminate|now apply N10]. }
  destruct (bs "//> link: " ++ T ++ [10%N]) as [|c0 p0] eqn:EP; [discriminate|]. rewrite <- EP in *. clear EP c0 p0.
  assert (SL : forall n p, p <> [] -> scan_loop g o f (S n) p =
     let '(line, rest) := cut_line p in
      do l <- scan_loop g o f n rest;
      Ok ((if is_prefix (bs "//>") line then run_line g o f (skip_sp (skipn 3 line)) else []) ++ l)).
  { intros n [|c p]; [easy|reflexivity]. }
  rewrite SL by discriminate. rewrite CL.
  assert (S0 : scan_loop g o f (length (bs "//> link: " ++ T ++ [10%N])) [] = Ok []) by reflexivity.
  rewrite S0. cbn [bind].
  change (is_prefix (bs "//>") (bs "//> link: " ++ T)) with true. cbn iota.
  change (skip_sp (skipn 3 (bs "//> link: " ++ T))) with (bs "link: " ++ T).
  rewrite app_nil_r. unfold run_line.
  rewrite (firstn_all2 (bs "link: " ++ T)) by (rewrite app_length; cbn [bs length]; lia).
  assert (RV : match rev (bs "link: " ++ T) with c :: t => if (c =? 13)%N then rev t else bs "link: " ++ T | [] => bs "link: " ++ T end = bs "link: " ++ T).
  { destruct (rev (bs "link: " ++ T)) as [|c t] eqn:E; [reflexivity|]. destruct (N.eqb_spec c 13) as [->|]; [|reflexivity].
    exfalso. assert (X : In 13%N (bs "link: " ++ T)) by (apply in_rev; rewrite E; now left).
    apply in_app_or in X as [X|X]; [cbn in X; intuition discriminate|now apply N13]. }
  rewrite RV.
  assert (EX : expand_env_vars g (S (length (bs "link: " ++ T))) 2047 (bs "link: " ++ T) = bs "link: " ++ M).
  { pose proof (expand_parts g (Plain (bs "link: ") :: ps) (S (length (bs "link: " ++ T))) 2047) as EP.
    cbn [flat_map vtext vmeaning] in EP. apply EP.
    - constructor; [cbn; intuition discriminate|exact OK].
    - unfold T. lia.
    - fold M. rewrite app_length. cbn [bs length]. lia. }
  rewrite EX. clear EX RV S0 SL CL.
  change (index_of 58 (bs "link: " ++ M)) with (Some 4). cbn iota.
  change (os_name (firstn 4 (bs "link: " ++ M))) with false. cbn iota.
  unfold run_directive. change (is_prefix (bs "link:") (bs "link: " ++ M)) with true. cbn iota.
  change (skipn 5 (bs "link: " ++ M)) with (32%N :: M). do 2 f_equal.
  change (skip_sp (32%N :: M)) with (skip_sp M). f_equal.
  destruct M as [|c M']; [reflexivity|]. cbn [skip_sp]. destruct (N.eqb_spec c 32) as [->|]; [now destruct (NB M')|reflexivity].
Qed.
Print Assumptions C58_environment_partial.
Example C58_environment_case :
  let env n := if beq_bytes n (bs "HOME") then Some (bs "/root") else None in
  let ps := [Plain (bs "-L"); Name (bs "HOME"); Plain (bs "/lib "); Name (bs "X")] in
  Forall vpart_ok ps /\ flat_map vtext ps = bs "-L${HOME}/lib ${X}" /\ flat_map (vmeaning env) ps = bs "-L/root/lib ${X}".
Proof.
  cbv zeta. splits; try reflexivity.
  repeat apply Forall_cons; try apply Forall_nil; cbn; repeat split; try (intuition discriminate); lia.
Qed.
