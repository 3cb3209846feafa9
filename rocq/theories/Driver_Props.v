(** C92: the files a build leaves and the exit status. *)
From Verif Require Import Common Driver_Model Driver_Spec Driver_Proofs.
Local Open Scope Z_scope.

(** A program the checks do not accept: exit status 1, and no file has changed.  Check mode never
    changes a file. *)
Theorem C92_reject : forall cwd c ph fs, ~ accepts c ph -> main cwd c ph fs = (1, fs, None).
Proof.
  intros cwd c ph fs N. unfold main. destruct (p_types ph) eqn:T; [|reflexivity]. cbn [negb].
  destruct (negb (c_typecheck c || _) && negb (p_moves ph)) eqn:A; [reflexivity|]. destruct ((c_typecheck c || _) && negb (p_check ph)) eqn:B; [reflexivity|].
  exfalso. apply N. split; auto. destruct (c_mode c), (c_typecheck c), (p_check ph), (p_moves ph); cbn in *; congruence.
Qed.
Print Assumptions C92_reject.
Theorem C92_check : forall cwd c ph fs, c_mode c = Check -> exists r, main cwd c ph fs = (r, fs, None) /\ (r = 0 <-> accepts c ph).
Proof.
  intros cwd c ph fs M. assert (D : {accepts c ph} + {~ accepts c ph}).
  { unfold accepts. rewrite M. destruct (p_types ph), (p_check ph); try (left; tauto); right; intros [A B]; congruence. }
  destruct D as [A|A].
  - exists 0. destruct (accepts_checks c ph A) as (T & C1 & C2). unfold main. rewrite T, C1, C2, M. cbn [negb]. split; [reflexivity|tauto].
  - exists 1. rewrite C92_reject by auto. split; [reflexivity|]. split; [discriminate|tauto].
Qed.
Print Assumptions C92_check.

(** A successful build: exit status 0, the output file is the program, the C file is kept exactly
    when asked, and no other file has changed. *)
Theorem C92_build : forall cwd c ph fs exe,
  accepts c ph -> c_mode c = Build -> ext_ok (c_ext c) -> short c -> p_cc ph (p_code ph) = Some exe ->
  exists fs', main cwd c ph fs = (0, fs', None) /\ lookup fs' (resolve cwd (outfile c)) = Some exe /\
    lookup fs' (resolve cwd (temp_source c)) = (if c_emit_c c then Some (p_code ph) else None) /\
    same_but [resolve cwd (outfile c); resolve cwd (temp_source c)] fs fs'.
Proof.
  intros cwd c ph fs exe A M H S CC. destruct (built cwd c ph fs exe A H S CC (or_introl M)) as (E & L1 & L2 & SB).
  rewrite M in E. eexists. split; [exact E|]. auto.
Qed.
Print Assumptions C92_build.
(** When the C compiler fails: exit status 1; nothing but the C file has changed. *)
Theorem C92_cc_fails : forall cwd c ph fs, accepts c ph -> (c_mode c = Build \/ c_mode c = Run) -> p_cc ph (p_code ph) = None ->
  exists fs', main cwd c ph fs = (1, fs', None) /\ same_but [resolve cwd (temp_source c)] fs fs'.
Proof.
  intros cwd c ph fs A M CC. destruct (accepts_checks c ph A) as (T & C1 & C2). unfold main. rewrite T, C1, C2. cbn [negb].
  eexists. split; [destruct M as [M|M]; rewrite M, lookup_write, path_refl, CC; reflexivity|].
  intros p N. destruct (c_emit_c c); rewrite ?lookup_remove, ?lookup_write, !path_neq; auto; intros E; apply N; left; auto.
Qed.
Print Assumptions C92_cc_fails.
(** False: no other file of the user's is lost.  Whatever file has the name of the temporary C
    file (out.c, or the output name with .c) is gone after a build, a source file too. *)
Theorem C92_overwrites_refuted : forall cwd c ph fs exe mine,
  accepts c ph -> c_mode c = Build -> ext_ok (c_ext c) -> short c -> p_cc ph (p_code ph) = Some exe -> c_emit_c c = false ->
  lookup fs (resolve cwd (match c_output c with Some o => o ++ c_ext c | None => bs "out" ++ c_ext c end)) = Some mine ->
  exists fs', main cwd c ph fs = (0, fs', None) /\ lookup fs' (resolve cwd (match c_output c with Some o => o ++ c_ext c | None => bs "out" ++ c_ext c end)) = None.
Proof.
  intros cwd c ph fs exe mine A M H S CC EC L. destruct (C92_build cwd c ph fs exe A M H S CC) as (fs' & E & _ & L2 & _).
  exists fs'. split; auto. rewrite EC, (temp_name c H S) in L2. exact L2.
Qed.
Print Assumptions C92_overwrites_refuted.

(** Running with a relative output name: the program that runs is the one just compiled, its exit
    status is the exit status, and it is removed afterwards. *)
Theorem C92_run_partial : forall cwd c ph fs exe code,
  accepts c ph -> c_mode c = Run -> ext_ok (c_ext c) -> short c -> p_cc ph (p_code ph) = Some exe -> relative (outfile c) ->
  p_exec ph (Some exe) = exited code -> 0 <= code < 256 -> code <> 128 ->
  exists fs', main cwd c ph fs = (code, fs', Some (resolve cwd (outfile c))) /\ lookup fs' (resolve cwd (outfile c)) = None /\
    lookup fs' (resolve cwd (temp_source c)) = (if c_emit_c c then Some (p_code ph) else None) /\
    same_but [resolve cwd (outfile c); resolve cwd (temp_source c)] fs fs'.
Proof.
  intros cwd c ph fs exe code A M H S CC R X B N. destruct (built cwd c ph fs exe A H S CC (or_intror M)) as (E & L1 & L2 & SB).
  rewrite M in E. cbv zeta in E.
  assert (Sn : snprintf1024 (bs "./" ++ outfile c) = bs "./" ++ outfile c).
  { apply firstn_all2. rewrite app_length. change (length (bs "./")) with 2%nat. unfold short, outfile in *. destruct (c_output c); [lia|change (length (bs "a.out")) with 5%nat; lia]. }
  assert (Rn : resolve cwd (bs "./" ++ outfile c) = resolve cwd (outfile c)) by (rewrite resolve_dot, resolve_rel by auto; reflexivity).
  rewrite Sn, Rn in E. unfold run_command in E. rewrite L1, X in E. destruct (exited_status code B) as [W1 W2]. rewrite W1, W2 in E. rewrite status_again in E by auto.
  destruct (Z.eqb_spec code 128); [contradiction|]. eexists. split; [exact E|]. rewrite !lookup_remove, path_refl, path_neq by (apply files_differ; auto).
  split; auto. split; auto. intros p Np. rewrite lookup_remove, path_neq by (intros Q; apply Np; now left). auto.
Qed.
Print Assumptions C92_run_partial.
(** False for the exit status 128: the status is taken apart twice, and success is reported. *)
Theorem C92_status_refuted : forall cwd c ph fs exe,
  accepts c ph -> c_mode c = Run -> ext_ok (c_ext c) -> short c -> p_cc ph (p_code ph) = Some exe -> relative (outfile c) ->
  p_exec ph (Some exe) = exited 128 -> exists fs' ran, main cwd c ph fs = (0, fs', ran).
Proof.
  intros cwd c ph fs exe A M H S CC R X. destruct (built cwd c ph fs exe A H S CC (or_intror M)) as (E & L1 & L2 & SB).
  rewrite M in E. cbv zeta in E.
  assert (Sn : snprintf1024 (bs "./" ++ outfile c) = bs "./" ++ outfile c).
  { apply firstn_all2. rewrite app_length. change (length (bs "./")) with 2%nat. unfold short, outfile in *. destruct (c_output c); [lia|change (length (bs "a.out")) with 5%nat; lia]. }
  assert (Rn : resolve cwd (bs "./" ++ outfile c) = resolve cwd (outfile c)) by (rewrite resolve_dot, resolve_rel by auto; reflexivity).
  rewrite Sn, Rn in E. unfold run_command in E. rewrite L1, X in E. destruct (exited_status 128 ltac:(lia)) as [W1 W2]. rewrite W1, W2 in E.
  rewrite status_again in E by lia. cbn [Z.eqb Pos.eqb] in E. eexists. eexists. exact E.
Qed.
Print Assumptions C92_status_refuted.
(** A program ended by a signal (the low seven bits of its wait status are not zero) is never taken
    for a success: the status is 255. *)
Theorem C92_signal : forall cwd c ph fs exe,
  accepts c ph -> c_mode c = Run -> ext_ok (c_ext c) -> short c -> p_cc ph (p_code ph) = Some exe -> relative (outfile c) ->
  p_exec ph (Some exe) mod 128 <> 0 ->
  exists r fs' ran, main cwd c ph fs = (r, fs', ran) /\ shell_status r = 255.
Proof.
  intros cwd c ph fs exe A M H S CC R X. destruct (built cwd c ph fs exe A H S CC (or_intror M)) as (E & L1 & L2 & SB).
  rewrite M in E. cbv zeta in E.
  assert (Sn : snprintf1024 (bs "./" ++ outfile c) = bs "./" ++ outfile c).
  { apply firstn_all2. rewrite app_length. change (length (bs "./")) with 2%nat. unfold short, outfile in *. destruct (c_output c); [lia|change (length (bs "a.out")) with 5%nat; lia]. }
  assert (Rn : resolve cwd (bs "./" ++ outfile c) = resolve cwd (outfile c)) by (rewrite resolve_dot, resolve_rel by auto; reflexivity).
  rewrite Sn, Rn in E. unfold run_command in E. rewrite L1 in E.
  assert (W : wifexited (p_exec ph (Some exe)) = false) by (unfold wifexited; rewrite land127; apply Z.eqb_neq; exact X).
  rewrite W in E. eexists. eexists. eexists. split; [exact E|reflexivity].
Qed.
Print Assumptions C92_signal.
(** False for an absolute output name: another file is run, and when there is none the status is
    127. *)
Theorem C92_absolute_refuted : forall cwd c ph fs exe o,
  accepts c ph -> c_mode c = Run -> ext_ok (c_ext c) -> short c -> p_cc ph (p_code ph) = Some exe -> c_output c = Some (47%N :: o) -> cwd <> [] ->
  exists r fs' ran, main cwd c ph fs = (r, fs', Some ran) /\ ran <> resolve cwd (47%N :: o) /\
    (lookup fs ran = None -> ran <> resolve cwd (temp_source c) -> r = 127).
Proof.
  intros cwd c ph fs exe o A M H S CC O CN. destruct (built cwd c ph fs exe A H S CC (or_intror M)) as (E & L1 & L2 & SB).
  rewrite M in E. cbv zeta in E. assert (Of : outfile c = 47%N :: o) by (unfold outfile; now rewrite O). rewrite Of in *.
  assert (Sn : snprintf1024 (bs "./" ++ 47%N :: o) = bs "./" ++ 47%N :: o).
  { apply firstn_all2. rewrite app_length. change (length (bs "./")) with 2%nat. unfold short in S. rewrite O in S. lia. }
  rewrite Sn, resolve_dot in E. eexists. eexists. eexists. split; [exact E|].
  assert (D : cwd ++ filter real (split_slash (47%N :: o)) <> resolve cwd (47%N :: o)).
  { rewrite resolve_abs. change (split_slash (47%N :: o)) with ([] :: split_slash o). cbn [filter]. change (real []) with false. cbv iota.
    intros X. apply (f_equal (@length bytes)) in X. rewrite app_length in X. destruct cwd; [congruence|cbn [length] in X; lia]. }
  split; [exact D|]. intros L N. rewrite (SB (cwd ++ filter real (split_slash (47%N :: o)))); [|intros [X|[X|[]]]; congruence].
  rewrite L. reflexivity.
Qed.
Print Assumptions C92_absolute_refuted.

(** Transpiling: the C text is in the file asked for, or in the default one; nothing is compiled. *)
Theorem C92_transpile : forall cwd c ph fs, accepts c ph -> c_mode c = Transpile -> ext_ok (c_ext c) -> short c ->
  exists fs', main cwd c ph fs = (0, fs', None) /\
    lookup fs' (match c_output c with Some o => resolve cwd o | None => resolve cwd (bs "out" ++ c_ext c) end) = Some (p_code ph) /\
    same_but [resolve cwd (outfile c); resolve cwd (temp_source c)] fs fs'.
Proof.
  intros cwd c ph fs A M H S. destruct (accepts_checks c ph A) as (T & C1 & C2). pose proof (files_differ cwd c H S) as D.
  pose proof (temp_name c H S) as TN. unfold main. rewrite T, C1, C2, M. cbn [negb]. unfold outfile in *. destruct (c_output c) as [o|].
  - rewrite lookup_write, path_refl. eexists. split; [reflexivity|]. rewrite lookup_write, path_refl. split; auto.
    intros p N. rewrite lookup_write, lookup_remove, lookup_write. rewrite path_neq by (intros Q; apply N; now left).
    rewrite path_neq by (intros E; apply N; right; left; auto). reflexivity.
  - rewrite TN in *. eexists. split; [reflexivity|]. rewrite lookup_write, path_refl. split; auto.
    intros p N. rewrite lookup_write, path_neq; auto. intros E. apply N. right. left. auto.
Qed.
Print Assumptions C92_transpile.

(** The hypotheses are met. *)
Example C92_case :
  let ph code := Phases true true true (bs "int main") (fun t => Some (bs "ELF" ++ t)) (fun _ => exited code) in
  let c m o := Config m o false false (bs ".c") in
  let cwd := [bs "home"; bs "me"] in
  accepts (c Run None) (ph 3) /\ ext_ok (bs ".c") /\ short (c Run (Some (bs "bin/prog"))) /\ relative (bs "bin/prog") /\
  main cwd (c Run (Some (bs "bin/prog"))) (ph 3) [(cwd ++ [bs "x"], bs "y")] = (3, [(cwd ++ [bs "x"], bs "y")], Some (cwd ++ [bs "bin"; bs "prog"])) /\
  main cwd (c Run None) (ph 128) [] = (0, [], Some (cwd ++ [bs "a.out"])) /\
  main cwd (c Run (Some (bs "/tmp/p"))) (ph 3) [] = (127, [], Some (cwd ++ [bs "tmp"; bs "p"])) /\
  main cwd (c Build None) (ph 3) [(cwd ++ [bs "out.c"], bs "mine")] = (0, [(cwd ++ [bs "a.out"], bs "ELFint main")], None).
Proof.
  cbv zeta. split; [split; reflexivity|]. split; [left; reflexivity|]. split; [cbn; lia|]. split; [exact I|].
  repeat (split; [vm_compute; reflexivity|]). vm_compute. reflexivity.
Qed.
