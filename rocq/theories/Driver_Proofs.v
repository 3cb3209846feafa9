From Verif Require Import Common Driver_Model Driver_Spec.
Local Open Scope Z_scope.

Lemma path_eqb_spec p : forall q, path_eqb p q = true <-> p = q.
Proof.
  induction p as [|a p IH]; intros [|b q]; cbn [path_eqb]; try (split; [discriminate|discriminate]); [tauto|].
  split.
  - intros E. apply andb_prop in E as [E1 E2]. apply beq_bytes_true in E1. apply IH in E2. congruence.
  - intros E. injection E as -> ->. rewrite beq_bytes_refl. now apply IH.
Qed.
Lemma path_refl p : path_eqb p p = true. Proof. now apply path_eqb_spec. Qed.
Lemma path_neq p q : p <> q -> path_eqb p q = false.
Proof. intros N. destruct (path_eqb p q) eqn:E; auto. apply path_eqb_spec in E. contradiction. Qed.
Lemma path_dec (p q : path) : {p = q} + {p <> q}.
Proof. destruct (path_eqb p q) eqn:E; [left; now apply path_eqb_spec|right; intros ->; rewrite path_refl in E; discriminate]. Qed.

Lemma lookup_remove fs p q : lookup (remove fs p) q = if path_eqb p q then None else lookup fs q.
Proof.
  induction fs as [|[r c] fs IH]; cbn [remove filter lookup]; [now destruct (path_eqb p q)|].
  fold (remove fs p). destruct (path_dec p r) as [->|N].
  - rewrite path_refl. cbn [negb]. rewrite IH. destruct (path_dec r q) as [->|N2]; [now rewrite path_refl|].
    rewrite !path_neq by congruence. reflexivity.
  - rewrite (path_neq p r) by auto. cbn [negb lookup]. destruct (path_dec q r) as [->|N2].
    + rewrite path_refl, path_neq by auto. reflexivity.
    + rewrite (path_neq q r) by auto. exact IH.
Qed.
Lemma lookup_write fs p c q : lookup (write fs p c) q = if path_eqb p q then Some c else lookup fs q.
Proof.
  unfold write. cbn [lookup]. destruct (path_dec p q) as [->|N]; [now rewrite !path_refl|].
  rewrite (path_neq q p), (path_neq p q) by congruence. now rewrite lookup_remove, path_neq.
Qed.

Lemma split_dot name : split_slash (bs "./" ++ name) = bs "." :: split_slash name.
Proof. reflexivity. Qed.
Lemma resolve_dot cwd name : resolve cwd (bs "./" ++ name) = cwd ++ filter real (split_slash name).
Proof. unfold resolve. rewrite split_dot. reflexivity. Qed.
Lemma resolve_rel cwd name : relative name -> resolve cwd name = cwd ++ filter real (split_slash name).
Proof.
  intros R. unfold resolve. destruct name as [|c name]; [reflexivity|]. f_equal.
  destruct c as [|p]; [reflexivity|]. do 6 (destruct p; try reflexivity). destruct R.
Qed.
Lemma resolve_abs cwd name : resolve cwd (47%N :: name) = filter real (split_slash name).
Proof. reflexivity. Qed.

Lemma land127 z : Z.land z 127 = z mod 128.
Proof. change 127 with (Z.ones 7). now rewrite Z.land_ones. Qed.
Lemma exited_status code : 0 <= code < 256 -> wifexited (exited code) = true /\ wexitstatus (exited code) = code.
Proof.
  intros H. unfold wifexited, wexitstatus, exited. rewrite land127. split.
  - apply Z.eqb_eq. replace (code * 256) with (2 * code * 128) by lia. apply Z.mod_mul. lia.
  - rewrite Z.shiftr_div_pow2 by lia. change (2 ^ 8) with 256. rewrite Z.div_mul by lia. change 255 with (Z.ones 8). rewrite Z.land_ones by lia. apply Z.mod_small. lia.
Qed.
Lemma status_again code : 0 <= code < 256 -> (if wifexited code then wexitstatus code else code) = if code =? 128 then 0 else code.
Proof.
  intros H. unfold wifexited, wexitstatus. rewrite land127.
  destruct (Z.eqb_spec code 128) as [->|N]; [reflexivity|].
  destruct (Z.eqb_spec code 0) as [->|N0]; [reflexivity|].
  destruct (Z.eqb_spec (code mod 128) 0) as [E|E]; [|reflexivity]. exfalso.
  assert (code / 128 < 2) by (apply Z.div_lt_upper_bound; lia). assert (0 <= code / 128) by (apply Z.div_pos; lia).
  pose proof (Z.div_mod code 128 ltac:(lia)). lia.
Qed.

(** ** The output and the temporary file are different files *)
Lemma split_not_nil s : split_slash s <> [].
Proof. destruct s as [|c s]; cbn; [discriminate|]. destruct (c =? 47)%N; [discriminate|]. destruct (split_slash s); discriminate. Qed.
Lemma split_last s e : ~ In 47%N e -> exists i l, split_slash s = i ++ [l] /\ split_slash (s ++ e) = i ++ [l ++ e].
Proof.
  intros NE. assert (E0 : split_slash e = [e]).
  { induction e as [|c e IH]; [reflexivity|]. cbn [split_slash]. destruct (N.eqb_spec c 47) as [->|]; [exfalso; apply NE; now left|].
    rewrite IH; [reflexivity|]. intros X. apply NE. now right. }
  induction s as [|c s IH]; [exists [], []; cbn [app]; split; [reflexivity|exact E0]|].
  destruct IH as (i & l & A & B). cbn [split_slash app]. rewrite A, B. destruct (c =? 47)%N.
  - exists ([] :: i), l. split; reflexivity.
  - destruct i as [|p i]; [exists [], (c :: l)|exists ((c :: p) :: i), l]; split; reflexivity.
Qed.
Definition ext_ok (e : bytes) : Prop := In e [bs ".c"; bs ".cpp"; bs ".cu"; bs ".m"].
Lemma real_ext l e : ext_ok e -> real (l ++ e) = true.
Proof.
  intros H. unfold real. assert (L : (2 <= length (l ++ e))%nat).
  { rewrite app_length. destruct H as [<-|[<-|[<-|[<-|[]]]]]; cbn; lia. }
  destruct (beq_bytes (l ++ e) []) eqn:E; [apply beq_bytes_true in E; rewrite E in L; cbn in L; lia|].
  destruct (beq_bytes (l ++ e) (bs ".")) eqn:E2; [apply beq_bytes_true in E2; rewrite E2 in L; cbn in L; lia|]. reflexivity.
Qed.
Lemma ext_noslash e : ext_ok e -> ~ In 47%N e.
Proof. intros H X. destruct H as [<-|[<-|[<-|[<-|[]]]]]; cbn in X; intuition discriminate. Qed.
Definition base (cwd : path) (n : bytes) : path := match n with 47%N :: _ => [] | _ => cwd end.
Lemma resolve_base cwd n : resolve cwd n = base cwd n ++ filter real (split_slash n).
Proof. reflexivity. Qed.
Lemma names_differ cwd o e : ext_ok e -> resolve cwd o <> resolve cwd (o ++ e).
Proof.
  intros H E. destruct (split_last o e (ext_noslash e H)) as (i & l & A & B).
  rewrite !resolve_base in E. rewrite A, B, !filter_app in E. cbn [filter] in E. rewrite (real_ext l e H) in E.
  assert (Hd : base cwd (o ++ e) = base cwd o).
  { destruct o as [|c o]; [|reflexivity]. cbn [app]. destruct H as [<-|[<-|[<-|[<-|[]]]]]; reflexivity. }
  rewrite Hd in E. apply app_inv_head in E. apply app_inv_head in E. destruct (real l); [|discriminate].
  injection E as E. apply (f_equal (@length N)) in E. rewrite app_length in E. destruct H as [<-|[<-|[<-|[<-|[]]]]]; cbn in E; lia.
Qed.
Lemma default_differ cwd e : ext_ok e -> resolve cwd (bs "a.out") <> resolve cwd (bs "out" ++ e).
Proof. intros H E. destruct H as [<-|[<-|[<-|[<-|[]]]]]; unfold resolve in E; cbn in E; apply app_inv_head in E; discriminate. Qed.
Definition short (c : config) : Prop := match c_output c with Some o => (length o <= 1019)%nat | None => True end.
Lemma temp_name c : ext_ok (c_ext c) -> short c -> temp_source c = match c_output c with Some o => o ++ c_ext c | None => bs "out" ++ c_ext c end.
Proof.
  intros H S. unfold temp_source, short, snprintf1024 in *. destruct (c_output c) as [o|].
  - apply firstn_all2. rewrite app_length. destruct H as [<-|[<-|[<-|[<-|[]]]]]; cbn [length bs]; cbn; lia.
  - apply firstn_all2. rewrite app_length. destruct H as [<-|[<-|[<-|[<-|[]]]]]; cbn; lia.
Qed.
Lemma files_differ cwd c : ext_ok (c_ext c) -> short c -> resolve cwd (outfile c) <> resolve cwd (temp_source c).
Proof.
  intros H S. rewrite (temp_name c H S). unfold outfile. destruct (c_output c); [apply names_differ; auto|apply default_differ; auto].
Qed.
Lemma accepts_checks c ph : accepts c ph -> p_types ph = true /\
  negb (c_typecheck c || match c_mode c with Check => true | _ => false end) && negb (p_moves ph) = false /\
  (c_typecheck c || match c_mode c with Check => true | _ => false end) && negb (p_check ph) = false.
Proof.
  unfold accepts. intros [T A]. split; auto. destruct (c_mode c), (c_typecheck c); cbn [orb negb andb]; rewrite A; auto.
Qed.
Lemma built cwd c ph fs exe : accepts c ph -> ext_ok (c_ext c) -> short c -> p_cc ph (p_code ph) = Some exe -> (c_mode c = Build \/ c_mode c = Run) ->
  let src := resolve cwd (temp_source c) in let out := resolve cwd (outfile c) in
  let fs2 := if c_emit_c c then write (write fs src (p_code ph)) out exe else remove (write (write fs src (p_code ph)) out exe) src in
  (main cwd c ph fs = match c_mode c with
     | Run => let run := resolve cwd (snprintf1024 (bs "./" ++ outfile c)) in
              let ret := run_command ph (lookup fs2 run) in (if wifexited ret then wexitstatus ret else ret, remove fs2 out, Some run)
     | _ => (0, fs2, None) end) /\
  lookup fs2 out = Some exe /\ lookup fs2 src = (if c_emit_c c then Some (p_code ph) else None) /\ same_but [out; src] fs fs2.
Proof.
  intros A H S CC M src out fs2. destruct (accepts_checks c ph A) as (T & C1 & C2). pose proof (files_differ cwd c H S) as D. fold src out in D.
  split.
  - unfold main. rewrite T, C1, C2. cbn [negb]. destruct M as [M|M]; rewrite M; fold src out; rewrite lookup_write, path_refl, CC; reflexivity.
  - unfold fs2. destruct (c_emit_c c).
    + rewrite !lookup_write, path_refl, (path_neq out src) by auto. rewrite path_refl. split; auto. split; auto.
      intros p N. rewrite !lookup_write, (path_neq out p), (path_neq src p); auto; intros ->; apply N; cbn; auto.
    + rewrite !lookup_remove, path_refl, (path_neq src out) by auto. rewrite lookup_write, path_refl. split; auto. split; auto.
      intros p N. rewrite lookup_remove, !lookup_write, (path_neq out p), (path_neq src p); auto; intros ->; apply N; cbn; auto.
Qed.
