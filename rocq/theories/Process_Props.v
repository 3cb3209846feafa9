(** Property C61: running a child process. *)
From Verif Require Import Common Vec_Model Vec_Proofs Vec_Props String_Model String_Spec String_Proofs String_Props Url_Proofs
  Process_Model Process_Spec Process_Proofs.

(** Command::new(p).arg(a1)...arg(an) *)
Definition with_args (p : bytes) (l : list bytes) : res command :=
  fold_left (fun c a => do c <- c; command_arg c a) l (command_new p).
(** The same, run for its output, and for its status *)
Definition run (popen : bytes -> option (bytes * ending)) p l : res output :=
  do c <- with_args p l; command_output popen c.
Definition run_status (system : bytes -> option ending) p l : res Z :=
  do c <- with_args p l; command_status system c.

(** The machine: what a sequence of commands, each a list of words, prints and how it
    ends.  popen and system hand the line to the shell. *)
Definition executes (machine : list (list bytes) -> option (bytes * ending)) (popen : bytes -> option (bytes * ending)) :=
  forall l cs, shell l = Some cs -> popen l = machine cs.

Lemma fold_args l : forall c p m, shold (program c) p -> Forall2 shold (args c) m -> Forall nonul l ->
  exists c', fold_left (fun c a => do c <- c; command_arg c a) l (Ok c) = Ok c' /\
    shold (program c') p /\ Forall2 shold (args c') (m ++ l).
Proof.
  induction l as [|a l IH]; intros c p m P F Z; cbn [fold_left].
  - exists c. now rewrite app_nil_r.
  - cbn [bind]. unfold command_arg at 2. inversion Z; subst.
    destruct (snew_ok a) as (v & -> & Hv). rewrite cstr_id in Hv by auto. cbn [bind].
    destruct (IH (mkcmd (program c) (args c ++ [v])) p (m ++ [a])) as (c' & E & A & B); auto.
    { cbn. apply Forall2_app; auto. }
    exists c'. splits; auto. now rewrite <- app_assoc in B.
Qed.

Lemma with_args_ok p l : nonul p -> Forall nonul l ->
  exists c, with_args p l = Ok c /\ shold (program c) p /\ Forall2 shold (args c) l.
Proof.
  intros P L. unfold with_args, command_new. destruct (snew_ok p) as (v & -> & Hv). rewrite cstr_id in Hv by auto.
  cbn [bind]. exact (fold_args l (mkcmd v []) p [] Hv ltac:(constructor) L).
Qed.

Lemma line_ok p l : nonul p -> Forall nonul l -> short p ->
  exists c s, with_args p l = Ok c /\ build_cmd c = Ok s /\ cread (data s) = Ok (joined p l).
Proof.
  intros P L S. destruct (with_args_ok p l P L) as (c & E & A & B).
  destruct (build_ok c p l A S B) as (s & E' & H). exists c, s. splits; auto. now apply cread_ok.
Qed.

Lemma run_ok popen p l : nonul p -> Forall nonul l -> short p ->
  match popen (joined p l) with
  | None => exists o, run popen p l = Ok o /\ shold (std_out o) [] /\ exit_code o = (-1)%Z
  | Some (s, e) => nonul s -> exists o, run popen p l = Ok o /\ shold (std_out o) s /\ exit_code o = wait_status e
  end.
Proof.
  intros P L S. destruct (line_ok p l P L S) as (c & s & E & E1 & E2).
  unfold run, command_output. rewrite E. cbn [bind]. rewrite E1. cbn [bind]. rewrite E2. cbn [bind].
  destruct (snew_ok []) as (v & -> & Hv). cbn [bind] in *.
  destruct (popen (joined p l)) as [[t e]|].
  - intros Z. destruct (collect_ok (Datatypes.S (length t)) t v [] ltac:(lia) Z Hv) as (o & -> & Ho).
    cbn [bind]. eexists. splits; [reflexivity|exact Ho|reflexivity].
  - eexists. splits; [reflexivity|exact Hv|reflexivity].
Qed.

Lemma run_status_ok sys p l : nonul p -> Forall nonul l -> short p ->
  run_status sys p l = Ok (match sys (joined p l) with Some e => wait_status e | None => -1 end)%Z.
Proof.
  intros P L S. destruct (line_ok p l P L S) as (c & s & E & E1 & E2).
  unfold run_status, command_status. rewrite E. cbn [bind]. rewrite E1. cbn [bind]. rewrite E2. reflexivity.
Qed.

Lemma plain_nul w : plain w -> nonul w.
Proof. intros [_ F]. now apply nonul_in, plain_nonul. Qed.
Lemma plains_nul l : Forall plain l -> Forall nonul l.
Proof. apply Forall_impl, plain_nul. Qed.

(** A program and arguments made of characters that mean nothing to the shell: the
    program runs with exactly these arguments, and everything it prints is returned,
    whatever its length and line structure; the code is 0 exactly when it exits with 0. *)
Theorem C61_output_partial :
  forall machine popen p l out e,
  executes machine popen ->
  plain p -> is_reserved p = false -> short p -> Forall plain l ->
  machine [p :: l] = Some (out, e) -> ~ In 0%N out ->
  exists o, run popen p l = Ok o /\ text (std_out o) out /\
    (e <> Killed 0 -> (exit_code o = 0%Z <-> e = Exited 0)).
Proof.
  intros machine popen p l out e X P R S L M Z.
  assert (H := run_ok popen p l (plain_nul p P) (plains_nul l L) S).
  rewrite (X _ _ (shell_joined p l P R (plains l L))), filter_plain, M in H by exact L.
  destruct H as (o & E & A & B); [now apply nonul_in|].
  exists o. splits; auto. { now apply text_shold. }
  intros K. rewrite B. destruct e as [n|n]; unfold wait_status; split; intros Q; try discriminate.
  - f_equal. lia.
  - injection Q as ->. reflexivity.
  - exfalso. apply K. f_equal. lia.
Qed.
Print Assumptions C61_output_partial.

(** The same for status(). *)
Theorem C61_run_partial :
  forall machine system p l out e,
  executes machine (fun line => match system line with Some e => Some (out, e) | None => None end) ->
  plain p -> is_reserved p = false -> short p -> Forall plain l ->
  machine [p :: l] = Some (out, e) ->
  run_status system p l = Ok (wait_status e).
Proof.
  intros machine sys p l out e X P R S L M.
  rewrite (run_status_ok sys p l (plain_nul p P) (plains_nul l L) S).
  assert (H := X _ _ (shell_joined p l P R (plains l L))). rewrite filter_plain, M in H by exact L.
  destruct (sys (joined p l)); [|discriminate]. now injection H as ->.
Qed.
Print Assumptions C61_run_partial.

(** If the shell cannot be started the output is empty and the code is -1. *)
Theorem C61_unstartable :
  forall p l, ~ In 0%N p -> Forall (fun a => ~ In 0%N a) l -> short p ->
  exists o, run (fun _ => None) p l = Ok o /\ text (std_out o) [] /\ exit_code o = (-1)%Z.
Proof.
  intros p l P L S. destruct (run_ok (fun _ => None) p l) as (o & A & B & C); auto.
  - now apply nonul_in.
  - revert L. apply Forall_impl. intros a. now rewrite nonul_in.
  - exists o. splits; auto. now apply text_shold.
Qed.
Print Assumptions C61_unstartable.

(** An argument holding a blank reaches the program as two arguments. *)
Theorem C61_blank_refuted :
  forall machine popen p a b out e,
  executes machine popen -> plain p -> is_reserved p = false -> short p -> plain a -> plain b ->
  machine [[p; a; b]] = Some (out, e) -> ~ In 0%N out ->
  exists o, run popen p [a ++ bs " " ++ b] = Ok o /\ text (std_out o) out.
Proof.
  intros machine popen p a b out e X P R S A B M Z.
  assert (H := run_ok popen p [a ++ bs " " ++ b] (plain_nul p P)).
  assert (J : joined p [a ++ bs " " ++ b] = joined p [a; b]).
  { unfold joined. cbn [flat_map]. now rewrite !app_nil_r, !app_assoc. }
  rewrite J in H. rewrite (X _ _ (shell_joined p [a; b] P R (plains [a; b] ltac:(auto)))), filter_plain, M in H by auto.
  destruct H as (o & E & Q & _); auto.
  - constructor; [|constructor]. apply nonul_app; [now apply plain_nul|]. apply nonul_app; [|now apply plain_nul].
    apply nonul_in. cbn. intuition discriminate.
  - now apply nonul_in.
  - exists o. split; auto. now apply text_shold.
Qed.
Print Assumptions C61_blank_refuted.

(** An empty argument is lost. *)
Theorem C61_empty_refuted :
  forall machine popen p l m out e,
  executes machine popen -> plain p -> is_reserved p = false -> short p -> Forall plain l -> Forall plain m ->
  machine [p :: l ++ m] = Some (out, e) -> ~ In 0%N out ->
  exists o, run popen p (l ++ [[]] ++ m) = Ok o /\ text (std_out o) out.
Proof.
  intros machine popen p l m out e X P R S L L' M Z.
  assert (F : Forall (Forall (fun c => inert c = true)) (l ++ [[]] ++ m)).
  { apply Forall_app. split; [now apply plains|]. constructor; [constructor|now apply plains]. }
  assert (H := run_ok popen p (l ++ [[]] ++ m) (plain_nul p P)).
  rewrite (X _ _ (shell_joined p _ P R F)) in H. rewrite filter_app in H. cbn [app filter nonempty] in H.
  rewrite !filter_plain, M in H by auto.
  destruct H as (o & E & Q & _); auto.
  - revert F. apply Forall_impl. intros a Fa. now apply nonul_in, plain_nonul.
  - now apply nonul_in.
  - exists o. split; auto. now apply text_shold.
Qed.
Print Assumptions C61_empty_refuted.

(** An argument holding a semicolon starts a second program. *)
Theorem C61_injection_refuted :
  forall machine popen p a q m out e,
  executes machine popen -> plain p -> is_reserved p = false -> short p -> plain a ->
  plain q -> is_reserved q = false -> Forall plain m ->
  machine [[p; a]; q :: m] = Some (out, e) -> ~ In 0%N out ->
  exists o, run popen p [a ++ bs ";" ++ q ++ flat_map (fun w => bs " " ++ w) m] = Ok o /\ text (std_out o) out.
Proof.
  intros machine popen p a q m out e X P R S A Q RQ L M Z.
  assert (H := run_ok popen p [a ++ bs ";" ++ q ++ flat_map (fun w => bs " " ++ w) m] (plain_nul p P)).
  assert (J : joined p [a ++ bs ";" ++ q ++ flat_map (fun w => bs " " ++ w) m] = joined p [a] ++ bs ";" ++ joined q m).
  { unfold joined. cbn [flat_map]. now rewrite !app_nil_r, <- !app_assoc. }
  rewrite J in H.
  rewrite (X _ _ (shell_two p [a] q m P R (plains [a] ltac:(auto)) Q RQ (plains m L))) in H.
  rewrite !filter_plain, M in H by auto.
  destruct H as (o & E & T & _); auto.
  - constructor; [|constructor]. apply nonul_app; [now apply plain_nul|]. apply nonul_app.
    { apply nonul_in. cbn. intuition discriminate. }
    apply nonul_app; [now apply plain_nul|]. clear M J. induction L as [|w m W L IH]; cbn [flat_map]; [constructor|].
    apply nonul_app; [|exact IH]. constructor; [discriminate|now apply plain_nul].
  - now apply nonul_in.
  - exists o. split; auto. now apply text_shold.
Qed.
Print Assumptions C61_injection_refuted.

(** A program that exits with a code other than 0 is reported with 256 times that code. *)
Theorem C61_code_refuted :
  forall machine popen p l out n,
  executes machine popen -> plain p -> is_reserved p = false -> short p -> Forall plain l ->
  machine [p :: l] = Some (out, Exited n) -> ~ In 0%N out ->
  exists o, run popen p l = Ok o /\ exit_code o = (256 * Z.of_N n)%Z /\ (n <> 0%N -> exit_code o <> Z.of_N n).
Proof.
  intros machine popen p l out n X P R S L M Z.
  assert (H := run_ok popen p l (plain_nul p P) (plains_nul l L) S).
  rewrite (X _ _ (shell_joined p l P R (plains l L))), filter_plain, M in H by exact L.
  destruct H as (o & E & _ & B); [now apply nonul_in|].
  exists o. rewrite B. cbn [wait_status]. splits; auto. intros ?. lia.
Qed.
Print Assumptions C61_code_refuted.

(** Output holding a NUL byte loses the rest of that line. *)
Theorem C61_nul_refuted :
  forall machine popen p l a b e,
  executes machine popen -> plain p -> is_reserved p = false -> short p -> Forall plain l ->
  machine [p :: l] = Some (a ++ [0%N] ++ b, e) -> ~ In 0%N a -> ~ In 10%N (a ++ b) ->
  (N.of_nat (length (a ++ [0%N] ++ b)) < 1024)%N ->
  exists o, run popen p l = Ok o /\ text (std_out o) a.
Proof.
  intros machine popen p l a b e X P R S L M Z1 Z2 Len.
  destruct (line_ok p l (plain_nul p P) (plains_nul l L) S) as (c & s & E & E1 & E2).
  unfold run, command_output. rewrite E. cbn [bind]. rewrite E1. cbn [bind]. rewrite E2. cbn [bind].
  rewrite (X _ _ (shell_joined p l P R (plains l L))), filter_plain, M by exact L.
  destruct (snew_ok []) as (v & -> & Hv). cbn [bind].
  remember (a ++ [0%N] ++ b) as t eqn:Et.
  assert (length t <> 0) by (rewrite Et, !app_length; cbn; lia).
  cbn [collect]. unfold fgets at 1. destruct t as [|c0 t0] eqn:Q; [now cbn in *|]. rewrite <- Q in *. clear Q c0 t0.
  rewrite line_all; [|lia|].
  2:{ rewrite Et. intros I. apply Z2. apply in_app_iff in I as [I|[I|I]]; [now apply in_or_app; left|discriminate|now apply in_or_app; right]. }
  destruct (snew_ok t) as (ck & -> & Hc). cbn [bind].
  destruct (sappend_ok _ _ _ _ Hv Hc) as (o & -> & Ho). cbn [bind].
  assert (K : collect (length t) o [] = Ok o) by (destruct (length t); [easy|reflexivity]).
  rewrite K. cbn [bind]. eexists. split; [reflexivity|]. cbn [std_out]. apply text_shold.
  assert (C : cstr t = a). { rewrite Et. clear - Z1. induction a as [|c a IH]; [reflexivity|]. cbn.
    destruct (N.eqb_spec c 0) as [->|]; [now destruct Z1; left|]. f_equal. apply IH. intros I. apply Z1. now right. }
  rewrite C in Ho. exact Ho.
Qed.
Print Assumptions C61_nul_refuted.

(** Hypotheses are met: /bin/echo -n a.txt prints its arguments. *)
Definition echo (cs : list (list bytes)) : option (bytes * ending) :=
  match cs with
  | [p :: l] => if beq_bytes p (bs "/bin/echo") then Some (flat_map (fun w => w ++ [10%N]) l, Exited 0) else Some ([], Exited 127)
  | _ => None
  end.
Definition sh (l : bytes) := match shell l with Some cs => echo cs | None => None end.
Example C61_example :
  executes echo sh /\ plain (bs "/bin/echo") /\ is_reserved (bs "/bin/echo") = false /\ short (bs "/bin/echo") /\
  Forall plain [bs "-n"; bs "a.txt"] /\
  echo [[bs "/bin/echo"; bs "-n"; bs "a.txt"]] = Some (bs "-n" ++ [10%N] ++ bs "a.txt" ++ [10%N], Exited 0) /\
  (do o <- run sh (bs "/bin/echo") [bs "-n"; bs "a.txt"]; cread (data (std_out o)))
    = Ok (bs "-n" ++ [10%N] ++ bs "a.txt" ++ [10%N]) /\
  (do o <- run sh (bs "nosuch") [bs "x"]; Ok (exit_code o)) = Ok 32512%Z.
Proof.
  assert (PL : forall w, nonempty w && forallb inert w = true -> plain w).
  { intros w H. apply andb_true_iff in H as [A B]. split; [now destruct w|]. apply Forall_forall. now apply forallb_forall. }
  split. { intros l cs H. unfold sh. now rewrite H. }
  split; [now apply PL|]. split; [reflexivity|]. split; [reflexivity|].
  split. { constructor; [now apply PL|constructor; [now apply PL|constructor]]. }
  split; [reflexivity|]. split; (vm_compute; reflexivity).
Qed.
