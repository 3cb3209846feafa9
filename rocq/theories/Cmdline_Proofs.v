(** Lemmas for the command line. *)
From Verif Require Import Common Flags_Model Flags_Spec Flags_Proofs Cmdline_Model Cmdline_Spec.
Local Open Scope nat_scope.

(** What one option does *)
Definition table (w : bytes) : list switch := match find_switch w switches with Some s => s | None => [] end.
Definition does (i : item) (c : config) : res config :=
  match i with
  | ISwitch w => Ok (turn (table w) (switch_cc (table w) c))
  | ICc n => Ok (set_cc (if beq_bytes n (bs "zig") then bs "zig cc" else n) c)
  | IOutput _ n => Ok (set_output n c)
  | IInclude _ d => do c <- add_flag (bs "-I") (Some d) c; Ok (add_include d c)
  | ILib _ k n => add_link [45%N; k] (Some n) c
  | IOpt _ l => add_flag (bs "-O") (Some l) c
  | IDefine _ d => add_flag (bs "-D") (Some d) (add_define d c)
  | IPass f => add_flag f None c
  | IFile f => Ok (add_file f c)
  end.
Fixpoint do_all (l : list item) (c : config) : res config :=
  match l with [] => Ok c | i :: l => do c <- does i c; do_all l c end.

Lemma switch_found w : is_switch w -> exists s, find_switch w switches = Some s.
Proof.
  intros (s & I). destruct s; cbn in I; repeat (destruct I as [<-|I]; [eexists; reflexivity|]); destruct I.
Qed.
Lemma switch_table w s : is_switch w -> (In s (table w) <-> In w (names s)).
Proof.
  intros (s0 & I). destruct s0; cbn in I; repeat (destruct I as [<-|I]; [destruct s; vm_compute; split; intuition discriminate|]); destruct I.
Qed.
Lemma find_switch_none w : ~ is_switch w -> ~ In w messages -> find_switch w switches = None.
Proof.
  intros A B.
  assert (G : forall l, (forall x s, In (x, s) l -> w <> x) -> find_switch w l = None).
  { induction l as [|(x, s) l IH]; intros F; [reflexivity|]. cbn [find_switch]. destruct (beq_bytes w x) eqn:E.
    - apply beq_bytes_true in E. exfalso. exact (F x s (or_introl eq_refl) E).
    - apply IH. intros y t I. apply (F y t). now right. }
  apply G. intros x s I ->. 
  assert (Q : is_switch x \/ In x messages).
  { cbn in I. repeat (destruct I as [I|I]; [injection I as <- <-;
      first [left; first [now exists EmitC; left | now exists Json; left | now exists Comments; left | now exists Verbose; left
       | now exists Verbose; right; left | now exists Quiet; left | now exists Quiet; right; left | now exists NoZen; left | now exists Typecheck; left
       | now exists Freestanding; left | now exists Cpp; left | now exists Cuda; left | now exists Objc; left | now exists Objc; right; left
       | now exists Check; left]
       | right; vm_compute; tauto ]|]). destruct I. }
  tauto.
Qed.

Lemma parse_item i rest c : item_ok i -> parse (show i ++ rest) c = do c <- does i c; parse rest c.
Proof.
  destruct i as [w|n|j n|j d|j k n|j v|j d|f|f]; intros OK; cbn [show does item_ok] in *.
  - cbn [app parse bind]. unfold table. destruct (switch_found w OK) as (s & ->). reflexivity.
  - reflexivity.
  - destruct j; [|reflexivity]. destruct n as [|x r]; [exfalso; exact (OK eq_refl eq_refl)|]. reflexivity.
  - destruct j; [|change (parse (put false (bs "-I") d ++ rest) c) with (do c <- add_flag (bs "-I") (Some d) c; parse rest (add_include d c));
      destruct (add_flag _ _ _); reflexivity]. destruct d as [|x r]; [exfalso; exact (OK eq_refl eq_refl)|].
    change (parse (put true (bs "-I") (x :: r) ++ rest) c) with (do c <- add_flag (bs "-I") (Some (x :: r)) c; parse rest (add_include (x :: r) c)).
    destruct (add_flag _ _ _); reflexivity.
  - destruct OK as (OK & [-> | ->]).
    + destruct j; [|reflexivity]. destruct n as [|x r]; [exfalso; exact (OK eq_refl eq_refl)|]. reflexivity.
    + destruct j; [|reflexivity]. destruct n as [|x r]; [exfalso; exact (OK eq_refl eq_refl)|]. reflexivity.
  - destruct j; [|reflexivity]. destruct v as [|x r]; [exfalso; exact (OK eq_refl eq_refl)|]. reflexivity.
  - destruct j; [|reflexivity]. destruct d as [|x r]; [exfalso; exact (OK eq_refl eq_refl)|]. reflexivity.
  - destruct OK as ((r & ->) & NS & NM & NC & K). cbn [app parse]. rewrite find_switch_none by auto.
    destruct (beq_bytes _ (bs "--cc")) eqn:E; [apply beq_bytes_true in E; contradiction|].
    assert (P : forall k, In k (bs "oILlOD") -> is_prefix [45%N; k] (45%N :: r) = false).
    { intros k I. destruct r as [|y r]; [reflexivity|]. cbn [is_prefix]. rewrite N.eqb_refl. destruct (N.eqb_spec k y) as [->|]; [|reflexivity].
      exfalso. exact (K y r eq_refl I). }
    change (bs "-o") with [45%N; 111%N]. change (bs "-I") with [45%N; 73%N]. change (bs "-L") with [45%N; 76%N].
    change (bs "-l") with [45%N; 108%N]. change (bs "-O") with [45%N; 79%N]. change (bs "-D") with [45%N; 68%N].
    rewrite !P by (cbn; tauto). cbn [orb]. destruct (beq_bytes _ (bs "-g")) eqn:E2; [apply beq_bytes_true in E2; now rewrite E2|].
    reflexivity.
  - cbn [app parse bind]. assert (D : forall r, f <> 45%N :: r) by (intros r ->; apply OK; eauto).
    destruct f as [|x r]; [reflexivity|].
    assert (X : x <> 45%N) by (intros ->; exact (D r eq_refl)).
    assert (X' : (x =? 45)%N = false) by now apply N.eqb_neq.
    assert (X'' : (45 =? x)%N = false) by (apply N.eqb_neq; congruence).
    replace (find_switch (x :: r) switches) with (@None (list switch)).
    2:{ symmetry. apply find_switch_none.
        - intros (s & I). destruct s; cbn in I; repeat (destruct I as [I|I]; [injection I as I0 _; exact (X (eq_sym I0))|]); destruct I.
        - intros I. cbn in I. repeat (destruct I as [I|I]; [injection I as I0 _; exact (X (eq_sym I0))|]); destruct I. }
    destruct (beq_bytes (x :: r) (bs "--cc")) eqn:E; [apply beq_bytes_true in E; exfalso; injection E as E0 _; exact (X E0)|].
    destruct (beq_bytes (x :: r) (bs "-g")) eqn:E2; [apply beq_bytes_true in E2; exfalso; injection E2 as E0 _; exact (X E0)|].
    assert (P : forall k, is_prefix [45%N; k] (x :: r) = false) by (intros k; cbn [is_prefix]; now rewrite X'').
    change (bs "-o") with [45%N; 111%N]. change (bs "-I") with [45%N; 73%N]. change (bs "-L") with [45%N; 76%N].
    change (bs "-l") with [45%N; 108%N]. change (bs "-O") with [45%N; 79%N]. change (bs "-D") with [45%N; 68%N].
    rewrite !P. cbn [orb dash]. rewrite X'. reflexivity.
Qed.
Lemma parse_items l rest c : Forall item_ok l -> parse (flat_map show l ++ rest) c = do c <- do_all l c; parse rest c.
Proof.
  revert c. induction l as [|i l IH]; intros c F; [reflexivity|]. inversion F; subst. cbn [flat_map do_all].
  rewrite <- app_assoc, parse_item by auto. destruct (does i c); cbn [bind]; auto.
Qed.

(** The fields *)
Lemma push_all xs : forall l, length l <= 64 -> fold_left push xs l = firstn 64 (l ++ xs).
Proof.
  induction xs as [|x xs IH]; intros l L; cbn [fold_left].
  - rewrite app_nil_r. rewrite firstn_all2 by auto. reflexivity.
  - unfold push at 2. destruct (Nat.ltb_spec (length l) 64).
    + rewrite IH by (rewrite app_length; cbn; lia). now rewrite <- app_assoc.
    + rewrite IH by auto. replace 64 with (length l) by lia. rewrite !firstn_app, Nat.sub_diag. now cbn [firstn].
Qed.
Definition files_of (i : option bytes) (e : list bytes) (fs : list bytes) : option bytes * list bytes :=
  match i, fs with
  | None, [] => (None, e)
  | None, f :: fs => (Some f, fold_left push fs e)
  | Some x, _ => (Some x, fold_left push fs e)
  end.
Definition cc_of (x : bytes) (l : list bytes) : bytes := match last_of l with Some y => y | None => x end.
Lemma last_of_cons x l : last_of (x :: l) = Some (match last_of l with Some y => y | None => x end).
Proof. unfold last_of. cbn [rev]. destruct (rev l); reflexivity. Qed.
Lemma cc_of_cons x y l : cc_of x (y :: l) = cc_of y l.
Proof. unfold cc_of. rewrite last_of_cons. now destruct (last_of l). Qed.

Lemma main_flags_cons p v l d max e : main_flags d max ((p, v) :: l) = Ok e ->
  exists d', main_append_flag d max p v = Ok d' /\ main_flags d' max l = Ok e.
Proof. cbn [main_flags]. destruct (main_append_flag d max p v); cbn [bind]; try discriminate. eauto. Qed.

Lemma switch_cc_cc s c : cc (switch_cc s c) = match s with [Cpp] => bs "g++" | [Cuda; Cpp] => bs "nvcc" | _ => cc c end.
Proof. destruct s as [|[] [|[] [|]]]; reflexivity. Qed.
Lemma table_cc w : is_switch w -> forall x,
  match table w with [Cpp] => bs "g++" | [Cuda; Cpp] => bs "nvcc" | _ => x end =
  cc_of x (if beq_bytes w (bs "--cpp") then [bs "g++"] else if beq_bytes w (bs "--cuda") then [bs "nvcc"] else []).
Proof.
  intros (s0 & I) x. destruct s0; cbn in I; repeat (destruct I as [<-|I]; [reflexivity|]); destruct I.
Qed.
Lemma switch_cc_rest s c : input (switch_cc s c) = input c /\ extra (switch_cc s c) = extra c /\ output (switch_cc s c) = output c /\
  on (switch_cc s c) = on c /\ gcc_flags (switch_cc s c) = gcc_flags c /\ link (switch_cc s c) = link c /\
  defines (switch_cc s c) = defines c /\ includes (switch_cc s c) = includes c.
Proof. destruct s as [|[] [|[] [|]]]; repeat split. Qed.

Lemma cc_of_app x a b : cc_of x (a ++ b) = cc_of (cc_of x a) b.
Proof.
  revert x. induction a as [|y a IH]; intros x; [reflexivity|]. cbn [app]. rewrite !cc_of_cons. apply IH.
Qed.
Lemma do_fields l : forall c g k, Forall item_ok l -> main_flags (gcc_flags c) 4096 (c_pairs l) = Ok g -> main_flags (link c) 1024 (link_pairs l) = Ok k ->
  exists c', do_all l c = Ok c' /\ gcc_flags c' = g /\ link c' = k /\
    (input c', extra c') = files_of (input c) (extra c) (files l) /\
    output c' = match last_of (outputs l) with Some o => Some o | None => output c end /\
    (forall s, In s (on c') <-> In s (on c) \/ exists w, In (ISwitch w) l /\ In w (names s)) /\
    cc c' = cc_of (cc c) (compilers l) /\
    defines c' = fold_left push (map before_eq (macros l)) (defines c) /\ includes c' = fold_left push (dirs l) (includes c).
Proof.
  induction l as [|i l IH]; intros c g k F G K.
  - cbn in G, K. injection G as <-. injection K as <-. exists c. splits; try reflexivity.
    + cbn. now destruct (input c).
    + intros s. split; [tauto|]. intros [|(w & [] & _)]; auto.
  - inversion F as [|? ? OK F']; subst. cbn [do_all].
    assert (OT : forall (c1 c2 : config) s, on c1 = on c2 -> (forall w, i <> ISwitch w) -> 
      ((In s (on c1) \/ exists w, In (ISwitch w) l /\ In w (names s)) <-> (In s (on c2) \/ exists w, In (ISwitch w) (i :: l) /\ In w (names s)))).
    { intros c1 c2 s E NW. rewrite E. split; intros [A|(w & A & B)]; auto; right; exists w; split; auto.
      - now right.
      - destruct A as [A|A]; auto. exfalso. exact (NW w A). }
    destruct i as [w|n|j n|j d|j q n|j v|j d|f|f]; cbn [does bind c_pairs link_pairs flat_map app] in *.
    + destruct (IH (turn (table w) (switch_cc (table w) c)) g k F') as (c' & E & E1 & E2 & E3 & E4 & E5 & E6 & E7 & E8).
      { cbn [turn gcc_flags]. destruct (switch_cc_rest (table w) c) as (_&_&_&_&->&_). exact G. }
      { cbn [turn link]. destruct (switch_cc_rest (table w) c) as (_&_&_&_&_&->&_). exact K. }
      exists c'. cbn [turn input extra output on cc defines includes] in *.
      destruct (switch_cc_rest (table w) c) as (R1&R2&R3&R4&R5&R6&R7&R8). rewrite R1, R2 in E3. rewrite R3 in E4. rewrite R4 in E5. rewrite R7 in E7. rewrite R8 in E8.
      splits; auto.
      * intros s. rewrite E5, in_app_iff, (switch_table w s OK). split.
        -- intros [[A|A]|(w' & A & B)]; eauto 6. right. exists w. split; [now left|auto]. right. exists w'. split; [now right|auto].
        -- intros [A|(w' & [A|A] & B)]; eauto. injection A as ->. auto.
      * rewrite E6, switch_cc_cc, (table_cc w OK). change (compilers (ISwitch w :: l)) with ((if beq_bytes w (bs "--cpp") then [bs "g++"] else if beq_bytes w (bs "--cuda") then [bs "nvcc"] else []) ++ compilers l).
        now rewrite cc_of_app.
    + destruct (IH (set_cc (if beq_bytes n (bs "zig") then bs "zig cc" else n) c) g k F' G K) as (c' & E & E1 & E2 & E3 & E4 & E5 & E6 & E7 & E8).
      exists c'. cbn [set_cc input extra output on cc defines includes] in *. splits; auto.
      * intros s. rewrite E5. apply OT; [reflexivity|discriminate].
      * rewrite E6. change (compilers (ICc n :: l)) with ((if beq_bytes n (bs "zig") then bs "zig cc" else n) :: compilers l). rewrite cc_of_cons.
        f_equal. destruct (beq_bytes n (bs "zig")); [reflexivity|]. apply firstn_all2. exact OK.
    + destruct (IH (set_output n c) g k F' G K) as (c' & E & E1 & E2 & E3 & E4 & E5 & E6 & E7 & E8).
      exists c'. cbn [set_output input extra output on cc defines includes] in *. splits; auto.
      * rewrite E4. change (outputs (IOutput j n :: l)) with (n :: outputs l). rewrite last_of_cons. now destruct (last_of (outputs l)).
      * intros s. rewrite E5. apply OT; [reflexivity|discriminate].
    + apply main_flags_cons in G as (g' & G1 & G). unfold add_flag. rewrite G1. cbn [bind].
      match goal with |- context[do_all l ?x] => destruct (IH x g k F' G K) as (c' & E & E1 & E2 & E3 & E4 & E5 & E6 & E7 & E8) end.
      exists c'. cbn [add_include input extra output on cc defines includes] in *. splits; auto.
      intros s. rewrite E5. apply OT; [reflexivity|discriminate].
    + apply main_flags_cons in K as (k' & K1 & K). unfold add_link. rewrite K1. cbn [bind].
      match goal with |- context[do_all l ?x] => destruct (IH x g k F' G K) as (c' & E & E1 & E2 & E3 & E4 & E5 & E6 & E7 & E8) end.
      exists c'. cbn [input extra output on cc defines includes] in *. splits; auto.
      intros s. rewrite E5. apply OT; [reflexivity|discriminate].
    + apply main_flags_cons in G as (g' & G1 & G). unfold add_flag. rewrite G1. cbn [bind].
      match goal with |- context[do_all l ?x] => destruct (IH x g k F' G K) as (c' & E & E1 & E2 & E3 & E4 & E5 & E6 & E7 & E8) end.
      exists c'. cbn [input extra output on cc defines includes] in *. splits; auto.
      intros s. rewrite E5. apply OT; [reflexivity|discriminate].
    + apply main_flags_cons in G as (g' & G1 & G). unfold add_flag. cbn [add_define gcc_flags]. rewrite G1. cbn [bind].
      match goal with |- context[do_all l ?x] => destruct (IH x g k F' G K) as (c' & E & E1 & E2 & E3 & E4 & E5 & E6 & E7 & E8) end.
      exists c'. cbn [add_define input extra output on cc defines includes] in *. splits; auto.
      intros s. rewrite E5. apply OT; [reflexivity|discriminate].
    + apply main_flags_cons in G as (g' & G1 & G). unfold add_flag. rewrite G1. cbn [bind].
      match goal with |- context[do_all l ?x] => destruct (IH x g k F' G K) as (c' & E & E1 & E2 & E3 & E4 & E5 & E6 & E7 & E8) end.
      exists c'. cbn [input extra output on cc defines includes] in *. splits; auto.
      intros s. rewrite E5. apply OT; [reflexivity|discriminate].
    + assert (A : gcc_flags (add_file f c) = gcc_flags c /\ link (add_file f c) = link c /\ output (add_file f c) = output c /\ on (add_file f c) = on c
        /\ cc (add_file f c) = cc c /\ defines (add_file f c) = defines c /\ includes (add_file f c) = includes c).
      { unfold add_file. destruct (input c); repeat split. }
      destruct A as (A1 & A2 & A3 & A4 & A5 & A6 & A7).
      destruct (IH (add_file f c) g k F') as (c' & E & E1 & E2 & E3 & E4 & E5 & E6 & E7 & E8); [now rewrite A1|now rewrite A2|].
      rewrite A3 in E4. rewrite A4 in E5. rewrite A5 in E6. rewrite A6 in E7. rewrite A7 in E8.
      exists c'. splits; auto.
      * rewrite E3. change (files (IFile f :: l)) with (f :: files l). unfold add_file. destruct (input c); cbn [input extra set_input files_of fold_left]; [reflexivity|].
        destruct (files l); reflexivity.
      * intros s. rewrite E5. apply OT; [reflexivity|discriminate].
Qed.

Lemma message_none args : (forall w, In w args -> ~ In w messages) -> message args = None.
Proof.
  induction args as [|a r IH]; intros F; [reflexivity|]. cbn [message].
  assert (Fa := F a (or_introl eq_refl)).
  destruct (beq_bytes a (bs "--version")) eqn:E1; [apply beq_bytes_true in E1; exfalso; apply Fa; subst; cbn; tauto|].
  destruct (beq_bytes a (bs "-V")) eqn:E2; [apply beq_bytes_true in E2; exfalso; apply Fa; subst; cbn; tauto|].
  destruct (beq_bytes a (bs "--paths")) eqn:E3; [apply beq_bytes_true in E3; exfalso; apply Fa; subst; cbn; tauto|].
  cbn [orb]. apply IH. intros w I. apply F. now right.
Qed.
Lemma before_eq_ok d : defines_name d (before_eq d).
Proof.
  induction d as [|x d IH]; cbn [before_eq].
  - split; auto.
  - destruct (N.eqb_spec x 61) as [->|NE].
    + split; [intros []|]. right. now exists d.
    + destruct IH as (A & B). split; [intros [C|C]; auto|]. destruct B as [B|(t & B)]; [left; congruence|]. right. exists t. cbn. congruence.
Qed.

(** The list of arguments *)
Lemma add_all_ok xs : forall l, length (args l) < cap l -> exists l', add_all l xs = Ok l' /\ args l' = args l ++ xs /\ length (args l') < cap l'.
Proof.
  induction xs as [|x xs IH]; intros l L.
  - exists l. cbn. rewrite app_nil_r. auto.
  - cbn [add_all]. unfold arg_list_add.
    destruct (Nat.ltb_spec (length (args l) + 1) (if cap l <=? length (args l) + 1 then cap l * 2 else cap l)) as [Q|Q].
    + cbn [bind]. match goal with |- context[add_all ?a xs] => destruct (IH a) as (l' & E & A & B) end.
      * cbn [args cap]. rewrite app_length. cbn [length]. exact Q.
      * exists l'. splits; auto. rewrite A. cbn [args]. now rewrite <- app_assoc.
    + exfalso. destruct (Nat.leb_spec (cap l) (length (args l) + 1)); lia.
Qed.
Lemma one_word w : cmdline_ok (w, None) -> arg_list_add_from_string w = Ok [w].
Proof.
  intros OK. pose proof (tok_of_ok _ OK) as T. pose proof (split_joined [tok_of (w, None)] (Forall_cons _ T (Forall_nil _))) as S0.
  cbn [joined seps flat_map map] in S0. unfold tok, tok_of in S0. cbn [fst snd enc] in S0. unfold enc in S0. cbn [has_space existsb] in S0.
  rewrite !app_nil_r in S0. exact S0.
Qed.
Lemma flag_spec s c : flag s c = true <-> In s (on c).
Proof.
  unfold flag. rewrite existsb_exists. split.
  - intros (t & I & E). destruct s, t; try discriminate; exact I.
  - intros I. exists s. split; auto. destruct s; reflexivity.
Qed.
