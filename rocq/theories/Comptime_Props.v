(** C105: comptime blocks. *)
From Verif Require Import Common Lexer_Model Lexer_Spec Macro_Spec Macro_Props Comptime_Model Comptime_Spec Comptime_Proofs.
Local Open Scope nat_scope.

(** Reading a comptime block always comes to an end; the block is what stands between the
    opening brace and the brace that matches it, unchanged, and reading goes on after it. *)
Theorem C105_text :
  forall l, lpos l <= length (lsrc l) -> lemit l = false -> ends_well (lsrc l) ->
  block_text l = Panic \/
  exists code l' ts, block_text l = Ok (code, l') /\ lsrc l' = lsrc l /\
    Block (lsrc l) (lpos l) 1 ts (lpos l') /\ lpos l' <= length (lsrc l) /\
    firstn (lpos l) (lsrc l) ++ code ++ skipn (lpos l' - 1) (lsrc l) = lsrc l.
Proof.
  intros l Lp Em W. unfold block_text.
  pose proof (skip_ok (S (length (lsrc l))) l 1 Lp Em (le_n 1)) as H.
  destruct (skip_block _ l 1) as [l'| | |]; cbn [bind]; auto; [|contradiction|lia].
  right. destruct H as (ts & H1 & H2 & H3 & H4). do 3 eexists. split; [reflexivity|]. splits; eauto.
  rewrite <- (firstn_skipn (lpos l) (lsrc l)) at 4. f_equal.
  rewrite <- (firstn_skipn (lpos l' - 1 - lpos l) (skipn (lpos l) (lsrc l))) at 2. f_equal.
  rewrite skipn_skipn'. f_equal. lia.
Qed.
Print Assumptions C105_text.
Example C105_text_case :
  let s := bs "let s = ""}""; if s { } } fn" in
  match block_text (Lex s 0 1 1 false) with
  | Ok (c, l) => c = bs "let s = ""}""; if s { } " /\ lpos l = 23
  | _ => False
  end.
Proof. vm_compute. auto. Qed.

(** The program of a block has its declarations first and the statements in main, each
    in the order of the block. *)
Theorem C105_order_partial :
  forall pre block shared, filter is_impl block = [] ->
  program pre block shared =
    pre ++ flat_map snd (filter is_decl block) ++ flat_map shared_fun shared ++
    bs "int main() {" ++ nl ++ flat_map main_item (filter (fun i => negb (is_decl i)) block) ++
    bs "return 0;" ++ nl ++ bs "}" ++ nl.
Proof.
  intros pre block shared H. unfold program. rewrite split_ok. cbn [app].
  replace (filter is_stmt block) with (filter (fun i => negb (is_decl i)) block); auto.
  induction block as [|i block IH]; auto. cbn [filter] in *. unfold is_stmt at 1.
  destruct (is_impl i) eqn:E; [discriminate|]. rewrite andb_true_r. destruct (negb (is_decl i)); auto. f_equal; auto.
Qed.
Print Assumptions C105_order_partial.
Example C105_order_case :
  program [] [(KExpr, bs "f()"); (KFunction, bs "void f(){}"); (KStmt, bs "g;")] [(bs "int h()", bs "int h(){}")]
  = bs "void f(){}int h();" ++ nl ++ bs "int h(){}int main() {" ++ nl ++ bs "f();" ++ nl ++ bs "g;return 0;" ++ nl ++ bs "}" ++ nl.
Proof. reflexivity. Qed.

(** An impl in a block is left out without a word. *)
Theorem C105_impl_refuted :
  forall pre a c b shared, program pre (a ++ (KImpl, c) :: b) shared = program pre (a ++ b) shared.
Proof.
  intros. unfold program. rewrite !split_ok, !filter_app. cbn [filter]. reflexivity.
Qed.
Print Assumptions C105_impl_refuted.

(** The comptime functions of the program are declared only after the functions of the block. *)
Theorem C105_shared_refuted :
  forall pre block sig body,
  exists before after, program pre block [(sig, body)] = before ++ sig ++ bs ";" ++ nl ++ body ++ after /\
    (forall i, In i block -> fst i = KFunction -> exists x y, before = x ++ snd i ++ y).
Proof.
  intros. unfold program. rewrite split_ok. cbn [app].
  exists (pre ++ flat_map snd (filter is_decl block)). eexists. split.
  - rewrite <- !app_assoc. cbn [flat_map]. rewrite app_nil_r. unfold shared_fun. cbn [fst snd].
    rewrite <- !app_assoc. reflexivity.
  - intros i Ii K. apply in_split in Ii. destruct Ii as (l1 & l2 & ->). rewrite filter_app, flat_map_app.
    cbn [filter]. unfold is_decl at 2. rewrite K. cbn [flat_map].
    exists (pre ++ flat_map snd (filter is_decl l1)), (flat_map snd (filter is_decl l2)). now rewrite <- !app_assoc.
Qed.
Print Assumptions C105_shared_refuted.

(** As a statement, a block that gives one statement is replaced with it, but one that
    gives more is replaced with a C block, outside which its variables do not exist. *)
Theorem C105_scope_refuted :
  (forall s, spliced [s] = s) /\
  forall s t l, exists body, spliced (s :: t :: l) = bs "    {" ++ nl ++ body ++ bs "    }" ++ nl /\ body = s ++ t ++ concat l.
Proof. split; [reflexivity|]. intros. eexists. split; reflexivity. Qed.
Print Assumptions C105_scope_refuted.

Section Oracles.
  Variable cc : bytes -> bool.
  Variable exec : bytes -> bytes * Z.

  (** Whatever the order in which compilers in one directory take their steps, if their
      random numbers differ each gets the output of its own program, or fails if that
      program does not compile or does not exit with 0, as soon as it had seven turns. *)
  Theorem C105_output_partial :
    forall m jobs sched i d p, NoDup (map fst jobs) -> nth_error jobs i = Some (d, p) ->
    7 <= count_occ Nat.eq_dec sched i ->
    exists q, nth_error (snd (run cc exec (m, map (fun j => fresh (fst j) (snd j)) jobs) sched)) i = Some q /\
      at_ q = match result cc exec p with Some o => Done o | None => Failed end.
  Proof.
    intros m jobs sched i d p Nd E C.
    set (w := (m, map (fun j => fresh (fst j) (snd j)) jobs)).
    assert (Ew : nth_error (snd w) i = Some (fresh d p)).
    { unfold w. cbn [snd]. now rewrite nth_error_map, E. }
    destruct (turns cc exec sched w i _ Ew) as (q & Q1 & Q2 & Q3 & Q4).
    assert (O : ok cc exec m (run cc exec w sched)).
    { apply run_ok. unfold ok, w. cbn [fst snd]. splits; auto.
      - rewrite map_map. cbn. exact Nd.
      - apply Forall_forall. intros x Ix. apply in_map_iff in Ix. destruct Ix as (? & <- & _). exact Logic.I. }
    destruct O as (_ & G & _). apply nth_error_In in Q1 as Iq. rewrite Forall_forall in G. specialize (G q Iq).
    exists q. split; auto. unfold good in G. rewrite Q3 in G. cbn [prog fresh] in G.
    cbn [at_ fresh rank] in Q4.
    destruct (at_ q); cbn [rank] in Q4; try lia.
    - destruct G as (-> & _). reflexivity.
    - now rewrite G.
  Qed.

  (** At any moment, a compiler that got its output has removed its three files, and files
      that belong to no compiler are as they were. *)
  Theorem C105_clean_partial :
    forall m jobs sched, NoDup (map fst jobs) ->
    let w := run cc exec (m, map (fun j => fresh (fst j) (snd j)) jobs) sched in
    (forall q o x, In q (snd w) -> at_ q = Done o -> mine (digits q) x -> fst w x = None) /\
    (forall x, (forall d, In d (map fst jobs) -> ~ mine d x) -> fst w x = m x).
  Proof.
    intros m jobs sched Nd w.
    assert (O : ok cc exec m w).
    { apply run_ok. unfold ok. cbn [fst snd]. splits; auto.
      - rewrite map_map. cbn. exact Nd.
      - apply Forall_forall. intros x Ix. apply in_map_iff in Ix. destruct Ix as (? & <- & _). exact Logic.I. }
    destruct O as (_ & G & U). split.
    - intros q o x Iq A M. rewrite Forall_forall in G. specialize (G q Iq). unfold good in G. rewrite A in G.
      destruct G as (_ & G1 & G2 & G3). destruct M as [->|[->| ->]]; auto.
    - intros x H. apply U. intros q Iq. apply H.
      pose proof (run_ids cc exec sched (m, map (fun j => fresh (fst j) (snd j)) jobs)) as K. fold w in K.
      unfold ids in K. cbn [snd] in K. rewrite map_map in K. cbn [fresh digits prog] in K.
      assert (K' : map fst (map (fun p => (digits p, prog p)) (snd w)) = map fst (map (fun x => (fst x, snd x)) jobs)) by now rewrite K.
      rewrite !map_map in K'. cbn [fst] in K'. change (map (fun x : bytes * bytes => fst x) jobs) with (map fst jobs) in K'. rewrite <- K'. now apply in_map.
  Qed.

  (** A failing program leaves its files in the directory. *)
  Theorem C105_left_refuted :
    forall m d p, result cc exec p = None ->
    let w := run cc exec (m, [fresh d p]) [0; 0; 0] in
    map at_ (snd w) = [Failed] /\ fst w (src_name d) = Some (Text p).
  Proof.
    intros m d p R. unfold result in R. cbn [run fold_left step nth_error fst snd fresh step1 at_ digits prog firstn skipn app].
    rewrite put_same. destruct (cc p) eqn:C.
    - cbn [run fold_left step nth_error fst snd fresh step1 at_ digits prog firstn skipn app]. rewrite put_same.
      destruct (exec p) as [o st]. cbn [fst snd] in R. destruct (st =? 0)%Z; [discriminate|].
      cbn [map fst snd at_]. split; auto. rewrite put_other by apply src_out. rewrite put_other by apply src_bin. apply put_same.
    - cbn [run fold_left step nth_error fst snd fresh step1 at_ digits prog firstn skipn app map]. split; auto. apply put_same.
  Qed.

  (** With equal random numbers one compiler can get the output of the other's program. *)
  Theorem C105_collide_refuted :
    forall m d p1 p2 o, result cc exec p2 = Some o ->
    let w := run cc exec (m, [fresh d p1; fresh d p2]) [0; 1; 0; 0; 0; 0; 0; 0] in
    map at_ (snd w) = [Done o; Written].
  Proof.
    intros m d p1 p2 o R. unfold result in R. destruct (cc p2) eqn:C; [|discriminate].
    destruct (exec p2) as [o' st] eqn:E. cbn [fst snd] in R. destruct (st =? 0)%Z eqn:S0; [|discriminate].
    injection R as ->. cbn [run fold_left step nth_error fst snd fresh step1 at_ digits prog firstn skipn app].
    rewrite put_same, C. cbn [step nth_error fst snd step1 at_ digits prog firstn skipn app].
    rewrite put_same, E, S0. cbn [step nth_error fst snd step1 at_ digits prog firstn skipn app].
    rewrite put_same. reflexivity.
  Qed.
End Oracles.
Print Assumptions C105_output_partial.
Print Assumptions C105_clean_partial.
Print Assumptions C105_left_refuted.
Print Assumptions C105_collide_refuted.

Example C105_output_case :
  let cc := fun p => negb (beq_bytes p (bs "bad")) in
  let exec := fun p => (p ++ bs "!", 0%Z) in
  let w := run cc exec (fun _ => None, [fresh (bs "1") (bs "a"); fresh (bs "2") (bs "bad"); fresh (bs "3") (bs "c")])
             [0; 1; 2; 2; 0; 1; 0; 2; 0; 2; 0; 2; 0; 2; 0; 2] in
  map at_ (snd w) = [Done (bs "a!"); Failed; Done (bs "c!")] /\ fst w (src_name (bs "2")) = Some (Text (bs "bad")).
Proof. vm_compute. auto. Qed.
