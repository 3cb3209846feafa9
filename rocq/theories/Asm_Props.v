(** C111: inline assembly. *)
From Verif Require Import Common Asm_Model Asm_Spec Asm_Proofs.
Local Open Scope nat_scope.

(** A block of strings with at least one output: the assembler gets its text with every placeholder replaced by the operand of its variable, percent signs included, and the variables are operands in the order written.  Missing: no output; a digit behind a placeholder; escapes; braces and bars. *)
Theorem C111_block_partial : forall outs ins clobs l, outs <> [] -> length outs <= 16 -> length ins <= 16 -> length clobs <= 16 ->
  good (map snd outs ++ ins) l ->
  exists a, asm outs ins clobs (source l) = Ok a
  /\ c_asm a = Ok (flat_map (meant (map snd outs ++ ins)) l ++ [Ch 10], map out_operand outs ++ map In_ ins, map Clob clobs)
  /\ forall v, In (Hole v) l -> exists i, meant (map snd outs ++ ins) (Hole v) = [Op i]
     /\ (exists b, nth_error (map out_operand outs ++ map In_ ins) i = Some (Out b v) \/ nth_error (map out_operand outs ++ map In_ ins) i = Some (In_ v)).
Proof.
  intros outs ins clobs l N L1 L2 L3 G. unfold asm. replace ((16 <? length outs) || (16 <? length ins) || (16 <? length clobs)) with false
    by (symmetry; apply orb_false_intro; [apply orb_false_intro|]; apply Nat.ltb_ge; assumption).
  replace (negb match outs with [] => match ins with [] => match clobs with [] => true | _ :: _ => false end | _ :: _ => false end | _ :: _ => false end) with true by (destruct outs; [congruence|reflexivity]).
  rewrite transform_source by exact G. cbn [bind]. eexists. split; [reflexivity|]. split.
  - unfold c_asm. cbn [fst snd]. rewrite c_string_quote. cbn [bind]. rewrite sections_ok by now left. cbn [bind].
    replace (match sections outs ins clobs with [] => Ok (map Ch (flat_map (tr (map snd outs ++ ins)) l ++ [10%N])) | _ :: _ => expand (length (map out_operand outs ++ map In_ ins)) Plain (flat_map (tr (map snd outs ++ ins)) l ++ [10%N]) end)
      with (expand (length (map out_operand outs ++ map In_ ins)) Plain (flat_map (tr (map snd outs ++ ins)) l ++ [10%N])) by (destruct outs; [congruence|reflexivity]).
    rewrite expand_source; [reflexivity|exact G| |]; rewrite !app_length, !map_length; lia.
  - intros v I. assert (J : In v (map snd outs ++ ins)). { clear -G I. induction l as [|[s|w] l IH]; [contradiction| |]; cbn [good] in G; destruct I as [E|I]; try discriminate; try tauto. injection E as <-. tauto. }
    destruct (index_of_in _ _ J) as (i & X). exists i. cbn [meant]. rewrite X. split; [reflexivity|]. apply index_of_nth in X.
    destruct (Nat.lt_ge_cases i (length outs)) as [L|L].
    + rewrite nth_error_app1 in X by now rewrite map_length. rewrite nth_error_map in X. destruct (nth_error outs i) as [[m w]|] eqn:E; [|discriminate]. injection X as <-.
      exists (beq_bytes m (bs "inout")). left. rewrite nth_error_app1 by now rewrite map_length. rewrite nth_error_map, E. reflexivity.
    + rewrite nth_error_app2 in X by now rewrite map_length. exists true. right. rewrite nth_error_app2 by now rewrite map_length. rewrite map_length in *. rewrite nth_error_map, X. reflexivity.
Qed.
Print Assumptions C111_block_partial.
(** the add_five of the README, with a register *)
Definition r := bs "result".
Definition x := bs "x".
Definition five : list part := [Lit (bs "mov "); Hole x; Lit (bs ", "); Hole r; Lit [10%N]; Lit (bs "add $5, "); Hole r; Lit (bs ", %eax")].
Example C111_block_used : good [r; x] five /\ flat_map (meant [r; x]) five = map Ch (bs "mov ") ++ [Op 1] ++ map Ch (bs ", ") ++ [Op 0] ++ map Ch ([10%N] ++ bs "add $5, ") ++ [Op 0] ++ map Ch (bs ", %eax").
Proof.
  split; [|reflexivity]. cbn [good five]. splits; auto; try reflexivity; try (cbn; lia); try (cbn; tauto); try (cbn; intuition discriminate);
    cbn; intros c l E; injection E as <- _; reflexivity.
Qed.

(** Without operands the text of the strings reaches the assembler as it is written, if it has no opening brace. *)
Theorem C111_basic_partial : forall code, ~ In 123%N code -> exists a, asm [] [] [] code = Ok a /\ c_asm a = Ok (map Ch (code ++ [10%N]), [], []).
Proof.
  intros code N. assert (T : transform false [] [] 0 code = Ok code).
  { induction code as [|c l IH]; [reflexivity|]. cbn [transform]. destruct (N.eqb_spec c 123) as [->|D]; [exfalso; apply N; now left|]. rewrite IH by (intros I; apply N; now right). cbn [bind]. now rewrite andb_false_r. }
  unfold asm. cbn [length Nat.ltb Nat.leb orb negb map]. rewrite T. eexists. split; [reflexivity|]. unfold c_asm. cbn [fst snd]. rewrite c_string_quote. reflexivity.
Qed.
Print Assumptions C111_basic_partial.
Example C111_basic_used : ~ In 123%N (bs "mov %rax, %rbx"). Proof. cbn. intuition discriminate. Qed.

(** False of escapes: a tab written as backslash t reaches the assembler as these two characters. *)
Theorem C111_escape_refuted : forall a b, ~ In 123%N a -> ~ In 123%N b -> exists p, asm [] [] [] (a ++ bs "\t" ++ b) = Ok p
  /\ c_asm p = Ok (map Ch (a ++ [92%N; 116%N] ++ b ++ [10%N]), [], []) /\ c_asm p <> Ok (map Ch (a ++ [9%N] ++ b ++ [10%N]), [], []).
Proof.
  intros a b A B. destruct (C111_basic_partial (a ++ bs "\t" ++ b)) as (p & P & Q).
  { intros I. apply in_app_or in I as [I|I]; [auto|]. destruct I as [I|[I|I]]; [discriminate|discriminate|auto]. }
  exists p. split; [exact P|]. rewrite <- !app_assoc in Q. split; [exact Q|]. rewrite Q. intros E. injection E as E. apply (f_equal (@length piece)) in E. rewrite !map_length, !app_length in E. cbn [length bs] in E. lia.
Qed.
Print Assumptions C111_escape_refuted.

(** False without an output: a block with inputs or clobbers only does not compile. *)
Theorem C111_no_output_refuted : forall ins clobs code a, ins <> [] \/ clobs <> [] -> asm [] ins clobs code = Ok a -> c_asm a = Panic.
Proof.
  intros ins clobs code a N H. unfold asm in H. destruct ((16 <? length []) || (16 <? length ins) || (16 <? length clobs)); [discriminate|]. apply bind_Ok in H as (t & _ & H). injection H as <-.
  unfold c_asm. cbn [fst snd]. rewrite c_string_quote. cbn [bind].
  replace (c_sections (sections [] ins clobs)) with (@Panic (list operand * list operand * list operand)); [reflexivity|].
  destruct ins as [|i ins]; [|destruct clobs; reflexivity]. destruct clobs as [|c clobs]; [|reflexivity]. destruct N; congruence.
Qed.
Print Assumptions C111_no_output_refuted.
Example C111_no_output_used : exists a, asm [] [x] [bs "memory"] (bs "push {x}") = Ok a. Proof. eexists. reflexivity. Qed.

(** False of inputs in the first list: any word in front of a variable other than inout makes it an output. *)
Theorem C111_mode_refuted : forall mode v a, mode <> bs "inout" -> asm [(mode, v)] [] [] (bs "nop") = Ok a -> c_asm a = Ok (map Ch (bs "nop" ++ [10%N]), [Out false v], []).
Proof.
  intros mode v a N H. unfold asm in H. cbn [length Nat.ltb Nat.leb orb negb map snd] in H. cbn [transform bs] in H. cbn -[beq_bytes] in H. injection H as <-.
  unfold c_asm, out_operand. cbn [fst snd]. destruct (beq_bytes mode (bs "inout")) eqn:E; [apply beq_bytes_true in E; congruence|]. cbn [bs] in *. vm_compute. reflexivity.
Qed.
Print Assumptions C111_mode_refuted.
Example C111_mode_used : exists a, asm [(bs "in", x)] [] [] (bs "nop") = Ok a. Proof. eexists. reflexivity. Qed.

(** False of long names, many operands and long blocks: a buffer of the compiler overflows. *)
Theorem C111_long_refuted : forall (outs : list (bytes * bytes)) (ins clobs : list bytes) s (v : bytes) t, outs <> [] -> forallb (fun c => negb (dialect c)) s = true -> ~ In 125%N v -> 64 <= length v ->
  asm outs ins clobs (s ++ bs "{" ++ v ++ bs "}" ++ t) = UB.
Proof.
  intros outs ins clobs s v t N S B L. unfold asm. destruct ((16 <? length outs) || (16 <? length ins) || (16 <? length clobs)); [reflexivity|].
  replace (negb match outs with [] => match ins with [] => match clobs with [] => true | _ :: _ => false end | _ :: _ => false end | _ :: _ => false end) with true by (destruct outs; [congruence|reflexivity]).
  rewrite transform_lit by exact S. change (bs "{" ++ v ++ bs "}" ++ t) with (123%N :: v ++ 125%N :: t). cbn [transform]. change ((123 =? 123)%N) with true. cbn iota.
  rewrite to_brace_app by exact B. destruct (Nat.leb_spec 64 (length v)); [reflexivity|lia].
Qed.
Print Assumptions C111_long_refuted.
Theorem C111_many_refuted : forall outs ins clobs code, 16 < length outs \/ 16 < length ins \/ 16 < length clobs -> asm outs ins clobs code = UB.
Proof.
  intros outs ins clobs code H. unfold asm. replace ((16 <? length outs) || (16 <? length ins) || (16 <? length clobs)) with true; [reflexivity|]. symmetry.
  destruct H as [H|[H|H]]; apply Nat.ltb_lt in H; rewrite H; auto using orb_true_r. now rewrite orb_true_r.
Qed.
Print Assumptions C111_many_refuted.
Example C111_long_used : 64 <= length (repeat 97%N 70) /\ ~ In 125%N (repeat 97%N 70) /\ 16 < length (repeat x 17).
Proof. rewrite !repeat_length. splits; try lia. intros I. apply repeat_spec in I. discriminate. Qed.

(** False of a digit behind a placeholder: the two are read as the number of another operand, or of none. *)
Theorem C111_digit_refuted : forall (m v : bytes) (outs : list (bytes * bytes)) (ins clobs : list bytes) d, S (length outs) <= 16 -> length ins <= 16 -> length clobs <= 16 -> ~ In 125%N v -> length v < 64 -> 1 <= d <= 9 ->
  exists a, asm ((m, v) :: outs) ins clobs (bs "{" ++ v ++ bs "}" ++ [(48 + N.of_nat d)%N]) = Ok a
  /\ c_asm a = if d <? length outs + length ins + 1 then Ok ([Op d; Ch 10], map out_operand ((m, v) :: outs) ++ map In_ ins, map Clob clobs) else Panic.
Proof.
  intros m v outs ins clobs d L1 L2 L3 B L D. unfold asm. replace ((16 <? length ((m, v) :: outs)) || (16 <? length ins) || (16 <? length clobs)) with false
    by (symmetry; apply orb_false_intro; [apply orb_false_intro|]; apply Nat.ltb_ge; cbn [length]; assumption).
  cbn [negb]. replace (bs "{" ++ v ++ bs "}" ++ [(48 + N.of_nat d)%N]) with ((bs "{" ++ v ++ bs "}") ++ [(48 + N.of_nat d)%N]) by now rewrite <- !app_assoc.
  rewrite transform_hole by auto. assert (X : (48 + N.of_nat d =? 123)%N = false) by (apply N.eqb_neq; lia). assert (Y : (48 + N.of_nat d =? 37)%N = false) by (apply N.eqb_neq; lia).
  cbn [transform bind]. rewrite X. cbn [transform bind]. rewrite Y. cbn [andb map snd]. unfold find_operand. cbn [index_of]. rewrite beq_bytes_refl. eexists. split; [reflexivity|].
  unfold c_asm. cbn [fst snd]. rewrite c_string_quote. cbn [bind]. rewrite sections_ok by (left; discriminate). cbn [bind].
  change (sections ((m, v) :: outs) ins clobs) with (map out_operand ((m, v) :: outs) :: tl (sections ((m, v) :: outs) ins clobs)). cbn iota.
  set (n := length (map out_operand ((m, v) :: outs) ++ map In_ ins)). assert (En : n = length outs + length ins + 1) by (unfold n; rewrite app_length, !map_length; cbn [length]; lia).
  change (expand n Plain (((37%N :: show 0) ++ [(48 + N.of_nat d)%N]) ++ [10%N])) with (expand n (Num 0) ((48 + N.of_nat d)%N :: [10%N])).
  assert (Z : expand n (Num 0) ((48 + N.of_nat d)%N :: [10%N]) = if d <? n then Ok [Op d; Ch 10] else Panic).
  { cbn [expand]. rewrite (digit_of d) by lia. cbn [Nat.mul Nat.add]. change (digit 10) with (@None nat). cbn iota. destruct (d <? n); reflexivity. }
  rewrite Z, <- En. destruct (d <? n); reflexivity.
Qed.
Print Assumptions C111_digit_refuted.
Example C111_digit_used : ~ In 125%N x /\ length x < 64. Proof. cbn. split; [intuition discriminate|lia]. Qed.

(** A placeholder of no operand is not reported: it stays in the text. *)
Theorem C111_unknown_refuted : forall (outs : list (bytes * bytes)) (ins clobs : list bytes) s (v : bytes), outs <> [] -> length outs <= 16 -> length ins <= 16 -> length clobs <= 16 -> ~ In v (map snd outs ++ ins) ->
  forallb (fun c => negb (dialect c)) s = true -> ~ In 125%N v -> length v < 64 ->
  asm outs ins clobs (s ++ bs "{" ++ v ++ bs "}") = Ok (quote (dbl s ++ bs "{" ++ v ++ bs "}"), sections outs ins clobs).
Proof.
  intros outs ins clobs s v N L1 L2 L3 U S B L. unfold asm. replace ((16 <? length outs) || (16 <? length ins) || (16 <? length clobs)) with false
    by (symmetry; apply orb_false_intro; [apply orb_false_intro|]; apply Nat.ltb_ge; assumption).
  replace (negb match outs with [] => match ins with [] => match clobs with [] => true | _ :: _ => false end | _ :: _ => false end | _ :: _ => false end) with true by (destruct outs; [congruence|reflexivity]).
  rewrite transform_lit by exact S. replace (bs "{" ++ v ++ bs "}") with ((bs "{" ++ v ++ bs "}") ++ []) at 1 by apply app_nil_r. rewrite transform_hole by auto. cbn [transform bind].
  rewrite find_operand_index. destruct (index_of v (map snd outs ++ ins)) as [i|] eqn:E; [|now rewrite app_nil_r]. exfalso. apply U. apply index_of_nth in E. exact (nth_error_In _ _ E).
Qed.
Print Assumptions C111_unknown_refuted.
Example C111_unknown_used : ~ In (bs "y") (map snd [(bs "out", r)] ++ [x]). Proof. cbn. intuition discriminate. Qed.

(** Strings one after the other are lines of the code, up to 4095 bytes; behind that the buffer overflows. *)
Fixpoint joined (l : list bytes) : bytes := match l with [] => [] | [s] => s | s :: l => s ++ [10%N] ++ joined l end.
Theorem C111_lines_partial : forall s l t rest, s <> [] -> t = TRBrace \/ t = TColon ->
  parse_code (map TStr (s :: l) ++ t :: rest) = if (Z.of_nat (length (joined (s :: l))) <? 4096)%Z then Ok (joined (s :: l), t :: rest) else UB.
Proof.
  intros s l t rest N T. unfold parse_code. cbn [map app build new_line].
  assert (A : forall l c, c <> [] -> build Top (map TStr l ++ t :: rest) c = Ok (joined (c :: l), t :: rest)).
  { clear -T. induction l as [|s l IH]; intros c N. - cbn [map app build joined]. destruct T as [-> | ->]; reflexivity.
    - cbn [map app build]. destruct c as [|x c]; [congruence|]. cbn [new_line]. rewrite IH by (destruct c; discriminate). f_equal. f_equal. cbn [joined]. destruct l; rewrite <- !app_assoc; reflexivity. }
  rewrite A by exact N. reflexivity.
Qed.
Print Assumptions C111_lines_partial.
Example C111_lines_used : parse_code [TStr (bs "nop"); TStr (bs "mfence"); TRBrace] = Ok (bs "nop" ++ [10%N] ++ bs "mfence", [TRBrace]). Proof. reflexivity. Qed.

(** False of instructions without quotes: a placeholder is glued to the instruction, a plain operand becomes a line of its own, a string behind an instruction becomes its argument, quotes included, and the end of the file is never noticed. *)
Theorem C111_bare_refuted : forall m v s, m <> [] -> (forall c, In c m -> c <> 37%N /\ c <> 36%N /\ c <> 44%N /\ c <> 32%N) ->
  build Top [TIdent m; TLBrace; TIdent v; TRBrace; TRBrace] [] = Ok (m ++ bs "{" ++ v ++ bs "}", [TRBrace])
  /\ build Top [TIdent m; TIdent v; TRBrace] [] = Ok (m ++ [10%N] ++ v, [TRBrace])
  /\ build Top [TIdent m; TStr s; TRBrace] [] = Ok (m ++ [32%N; 34%N] ++ s ++ [34%N], [TRBrace])
  /\ build Top [TIdent m] [] = UB.
Proof.
  intros m v s N H. assert (L : exists m' c, m = m' ++ [c]). { destruct (exists_last N) as (m' & c & E). eauto. } destruct L as (m' & c & ->).
  destruct (H c) as (H1 & H2 & H3 & H4); [apply in_or_app; right; now left|]. apply N.eqb_neq in H1, H2, H3, H4.
  assert (X : last_char (m' ++ [c]) = c). { unfold last_char. rewrite rev_app_distr. cbn [rev app]. rewrite H4. destruct (rev m'); reflexivity. }
  splits.
  - cbn [build new_line app]. rewrite <- !app_assoc. reflexivity.
  - cbn [build new_line app]. rewrite X, H1, H2, H3. cbn [orb]. destruct (m' ++ [c]) eqn:E; [congruence|]. cbn [new_line]. rewrite <- E, <- !app_assoc. reflexivity.
  - cbn [build new_line app]. unfold put_arg. rewrite rev_app_distr. cbn [rev app]. rewrite H1, H2. cbn [orb text]. rewrite <- !app_assoc. reflexivity.
  - reflexivity.
Qed.
Print Assumptions C111_bare_refuted.
Example C111_bare_used : build Top [TIdent (bs "mov"); TIdent (bs "eax"); TRBrace] [] = Ok (bs "mov" ++ [10%N] ++ bs "eax", [TRBrace]). Proof. reflexivity. Qed.

(** Bare instructions: operands are registers, numbers and names, separated by commas; every instruction ends in a semicolon. *)
Inductive operand := Reg (r : bytes) | Imm (n : bytes) | Sym (s : bytes).
Definition operand_name (o : operand) : bytes := match o with Reg r => r | Imm n => n | Sym s => s end.
Definition operand_toks (o : operand) : list tok := match o with Reg r => [TText [37%N]; TIdent r] | Imm n => [TText [36%N]; TText n] | Sym s => [TIdent s] end.
Definition operand_text (o : operand) : bytes := 32%N :: match o with Reg r => 37%N :: r | Imm n => 36%N :: n | Sym s => s end.
Definition plain_name (s : bytes) : Prop := s <> [] /\ forall c, In c s -> c <> 37%N /\ c <> 36%N /\ c <> 44%N /\ c <> 32%N.
Definition plain_operand (o : operand) : Prop := plain_name (operand_name o).
(** an instruction, its first operand and the others *)
Definition bare := (bytes * operand * list operand)%type.
Definition bare_toks (i : bare) : list tok :=
  let '(m, o, os) := i in TIdent m :: operand_toks o ++ flat_map (fun o => TText [44%N] :: operand_toks o) os ++ [TSemi].
Definition bare_text (i : bare) : bytes := let '(m, o, os) := i in m ++ operand_text o ++ flat_map (fun o => bs " ," ++ operand_text o) os.
Definition plain_bare (i : bare) : Prop := let '(m, o, os) := i in plain_name m /\ (forall s, o <> Sym s) /\ forall p, In p (o :: os) -> plain_operand p.

Lemma build_args_operand o rest code c : plain_operand o -> c <> 37%N -> c <> 36%N -> (forall s, o = Sym s -> c = 44%N) ->
  build Args (operand_toks o ++ rest) (code ++ [c]) = build Args rest (code ++ [c] ++ operand_text o) /\ exists p d, operand_text o = p ++ [d] /\ d <> 37%N /\ d <> 36%N.
Proof.
  intros P H1 H2 S. apply N.eqb_neq in H1, H2. destruct P as (N & H).
  assert (L : forall l pre, l <> [] -> (forall c, In c l -> c <> 37%N /\ c <> 36%N /\ c <> 44%N /\ c <> 32%N) -> exists (p : bytes) d, pre ++ l = p ++ [d] /\ d <> 37%N /\ d <> 36%N).
  { intros l pre A B. destruct (exists_last A) as (p & d & ->). exists (pre ++ p), d. rewrite app_assoc. split; [reflexivity|]. destruct (B d) as (? & ? & _); [apply in_or_app; right; now left|]. auto. }
  assert (A : forall u, put_arg (code ++ [c]) u = code ++ [c] ++ 32%N :: u). { intros u. unfold put_arg. rewrite rev_app_distr. cbn [rev app]. rewrite H1, H2. cbn [orb]. rewrite <- app_assoc. reflexivity. }
  assert (Q : forall (w : bytes) d u, d = 37%N \/ d = 36%N -> put_arg (w ++ [d]) u = w ++ [d] ++ u).
  { intros w d u [->| ->]; unfold put_arg; rewrite rev_app_distr; cbn [rev app N.eqb]; cbn; rewrite <- app_assoc; reflexivity. }
  assert (K : forall (w : bytes) d b, d <> 32%N -> last_char (w ++ [b; d]) = d). { intros w d b D. apply N.eqb_neq in D. unfold last_char. rewrite rev_app_distr. cbn [rev app]. now rewrite D. }
  destruct o as [r|s|s]; cbn [operand_toks operand_text operand_name] in *.
  - split; [|apply (L r [32%N; 37%N] N H)].
    cbn [app build]. rewrite A. change (text (TText [37%N])) with [37%N].
    assert (E : code ++ [c] ++ 32%N :: [37%N] = (code ++ [c]) ++ [32%N; 37%N]) by (now rewrite <- app_assoc). rewrite E, K by discriminate. cbn [N.eqb Pos.eqb orb].
    replace ((code ++ [c]) ++ [32%N; 37%N]) with ((code ++ [c] ++ [32%N]) ++ [37%N]) by (now rewrite <- !app_assoc). rewrite Q by auto. now rewrite <- !app_assoc.
  - split; [|apply (L s [32%N; 36%N] N H)].
    cbn [app build]. rewrite A. change (text (TText [36%N])) with [36%N]. change (text (TText s)) with s.
    replace (code ++ [c] ++ 32%N :: [36%N]) with ((code ++ [c] ++ [32%N]) ++ [36%N]) by (now rewrite <- !app_assoc). rewrite Q by auto. now rewrite <- !app_assoc.
  - split; [|apply (L s [32%N] N H)]. specialize (S s eq_refl). subst c. cbn [app build].
    assert (E : last_char (code ++ [44%N]) = 44%N). { unfold last_char. rewrite rev_app_distr. cbn [rev app]. destruct (rev code); reflexivity. }
    rewrite E. cbn [N.eqb Pos.eqb orb]. rewrite A. reflexivity.
Qed.
Lemma build_args_operands os rest : forall code c, (forall o, In o os -> plain_operand o) -> c <> 37%N -> c <> 36%N ->
  build Args (flat_map (fun o => TText [44%N] :: operand_toks o) os ++ rest) (code ++ [c]) = build Args rest (code ++ [c] ++ flat_map (fun o => bs " ," ++ operand_text o) os).
Proof.
  induction os as [|o os IH]; intros code c P H1 H2; [now rewrite app_nil_r|]. cbn [flat_map]. rewrite <- app_assoc. cbn [app build].
  assert (A : put_arg (code ++ [c]) (text (TText [44%N])) = (code ++ [c; 32%N]) ++ [44%N]). { unfold put_arg. rewrite rev_app_distr. cbn [rev app]. apply N.eqb_neq in H1, H2. rewrite H1, H2. cbn [orb text]. rewrite <- !app_assoc. reflexivity. }
  rewrite A. destruct (build_args_operand o (flat_map (fun o => TText [44%N] :: operand_toks o) os ++ rest) (code ++ [c; 32%N]) 44%N) as (E & p & d & D & D1 & D2); try discriminate; [apply P; now left|reflexivity|].
  rewrite E, D. replace ((code ++ [c; 32%N]) ++ [44%N] ++ p ++ [d]) with ((code ++ [c; 32%N; 44%N] ++ p) ++ [d]) by (rewrite <- !app_assoc; reflexivity).
  rewrite IH by (auto; intros q Q; apply P; now right). f_equal. change (bs " ,") with [32%N; 44%N]. rewrite <- !app_assoc. reflexivity.
Qed.
Lemma build_bare i rest code : plain_bare i -> build Top (bare_toks i ++ rest) code = build Top rest (new_line code ++ bare_text i).
Proof.
  destruct i as ((m, o), os). intros ((N & H) & S & P). cbn [bare_toks bare_text app build].
  destruct (exists_last N) as (m' & c & ->). destruct (H c) as (H1 & H2 & _); [apply in_or_app; right; now left|].
  rewrite app_assoc, <- !app_assoc. rewrite (app_assoc (new_line code)).
  destruct (build_args_operand o (flat_map (fun o => TText [44%N] :: operand_toks o) os ++ [TSemi] ++ rest) (new_line code ++ m') c) as (E & p & d & D & D1 & D2); auto; [apply P; now left|intros s K; destruct (S s K)|].
  rewrite E, D. replace ((new_line code ++ m') ++ [c] ++ p ++ [d]) with (((new_line code ++ m') ++ [c] ++ p) ++ [d]) by (now rewrite <- !app_assoc).
  rewrite build_args_operands by (auto; intros q Q; apply P; now right). cbn [app build]. f_equal. rewrite <- !app_assoc. reflexivity.
Qed.
(** Bare instructions reach the assembler one a line, if every one ends in a semicolon and its first operand is a register or a number. *)
Theorem C111_bare_partial : forall i l t rest, (forall j, In j (i :: l) -> plain_bare j) -> t = TRBrace \/ t = TColon ->
  build Top (flat_map bare_toks (i :: l) ++ t :: rest) [] = Ok (joined (map bare_text (i :: l)), t :: rest).
Proof.
  intros i l t rest P T. cbn [flat_map map]. rewrite <- app_assoc, build_bare by (apply P; now left). cbn [new_line app].
  assert (N : forall j, plain_bare j -> bare_text j <> []). { intros ((m, o), os) ((N & _) & _) E. cbn [bare_text] in E. destruct m; [congruence|discriminate]. }
  assert (A : forall l c, c <> [] -> (forall j, In j l -> plain_bare j) -> build Top (flat_map bare_toks l ++ t :: rest) c = Ok (joined (c :: map bare_text l), t :: rest)).
  { clear - T N. induction l as [|j l IH]; intros c C P. - cbn [flat_map app build map joined]. destruct T as [-> | ->]; reflexivity.
    - cbn [flat_map]. rewrite <- app_assoc, build_bare by (apply P; now left). destruct c as [|x c]; [congruence|]. cbn [new_line]. rewrite IH; [|destruct c; discriminate|intros k K; apply P; now right].
      f_equal. f_equal. cbn [map joined]. destruct (map bare_text l); rewrite <- !app_assoc; reflexivity. }
  apply A; [apply N, P; now left|intros j J; apply P; now right].
Qed.
Print Assumptions C111_bare_partial.
Example C111_bare_partial_used : build Top [TIdent (bs "mov"); TText [37%N]; TIdent (bs "rdi"); TText [44%N]; TText [37%N]; TIdent (bs "rax"); TSemi; TIdent (bs "add"); TText [36%N]; TText (bs "1"); TText [44%N]; TText [37%N]; TIdent (bs "rax"); TSemi; TRBrace] []
  = Ok (bs "mov %rdi , %rax" ++ [10%N] ++ bs "add $1 , %rax", [TRBrace]). Proof. reflexivity. Qed.
