(** The forth plugin *)
From Verif Require Import Common Forth_Model Forth_Spec Forth_Proofs.
Local Open Scope nat_scope.

(** C117: a program that, by the rules of forth, leaves the stack l and writes o does so, with any layout between its words *)
Theorem C117_forth_partial : forall (dec : Z -> bytes) (gap : bytes) (p : list item) (l : list Z) (o : bytes),
  layout gap -> Forall good_item p -> definitions p <= 128 -> program dec none [] [] p l o ->
  exists fuel s, block dec fuel fresh (text gap p) = Ok s /\ stk s = l /\ out s = o /\ lps s = [].
Proof. intros dec gap p l o L G B P. destruct (block_ok dec gap p l o L G B P) as (f & d & H). exists f. eexists. split; [exact H|]. now splits. Qed.
Print Assumptions C117_forth_partial.

Fixpoint all (l : list word) : words := match l with [] => WNil | w :: l => WCons w (all l) end.
Definition squares : list item :=
  [Define (bs "square") (all [Op Dup; Op Mul]);
   Run (Num false (bs "3")); Run (Num false (bs "0"));
   Run (Do (all [Index; Call (bs "square"); Op Dup; If (all [Emit; Comma]); Index; Op Not; IfElse (all [Num true (bs "7")]) (all [Op Drop])]))].
Example C117_forth_ex : text (bs " ") squares = bs ": square dup * ; 3 0 do i square dup if emit , then i ~ if -7 else drop then loop ".
Proof. reflexivity. Qed.
(** hypotheses and the result of a program with a definition, a loop and both conditions *)
Definition show (z : Z) : bytes := [Z.to_N (z + 48)].
Definition sums : list item :=
  [Define (bs "square") (all [Op Dup; Op Mul]); Run (Num false (bs "3")); Run (Num false (bs "0"));
   Run (Do (all [Index; Call (bs "square"); Op Dup; IfElse (all [Emit; Comma]) (all [Emit])]))].
Lemma not_reserved x : forallb (fun s => negb (beq_bytes x s)) reserved = true -> ~ In x reserved.
Proof. intros H I. rewrite forallb_forall in H. specialize (H _ I). now rewrite beq_bytes_refl in H. Qed.
Ltac a_name := unfold name; splits; [split; [unfold letter; vm_compute; intuition discriminate|]; repeat (apply Forall_cons; [left; unfold letter; vm_compute; intuition discriminate|]); apply Forall_nil|apply not_reserved; reflexivity|cbn; lia].
Ltac go := first
  [ apply run_num; cbn; lia | eapply run_op; [reflexivity|cbn; lia] | apply run_index; cbn; lia | apply run_emit; vm_compute; reflexivity | apply run_comma; vm_compute; reflexivity
  | apply run_else | apply run_then; [vm_compute; discriminate|] | apply run_if; [vm_compute; discriminate|] | apply run_if_no | eapply run_call; [reflexivity|] | apply run_do
  | apply all_nil | eapply all_cons | apply loop_end; vm_compute; discriminate | eapply loop_round; [vm_compute; reflexivity|cbn; lia| |] ].
Example C117_forth_ex2 : layout (bs " ") /\ Forall good_item sums /\ definitions sums = 1 /\ program show none [] [] sums [] (bs "01, 4, ").
Proof.
  splits.
  - split; [discriminate|]. repeat constructor.
  - assert (N : name (bs "square")) by a_name.
    assert (F : forall n, (48 <= n <= 57)%N -> (n = 48 \/ n <> 48)%N -> numeral [n]).
    { intros n H _. unfold numeral. splits; [discriminate|now repeat constructor| |cbn; lia]. destruct (N.eq_dec n 48) as [->|D]; [now left|now right]. }
    unfold sums. apply Forall_cons; [split; [exact N|]; split; [now repeat split|unfold fits; cbn; lia]|].
    apply Forall_cons; [apply (F 51%N); lia|]. apply Forall_cons; [apply (F 48%N); lia|].
    apply Forall_cons; [|apply Forall_nil]. cbn [good_item well_formed well_formed_all all no_if_all no_if]. tauto.
  - reflexivity.
  - apply prog_define; [reflexivity|]. eapply prog_run; [go|]. eapply prog_run; [go|]. eapply prog_run; [|apply prog_end]. repeat go.
Qed.

(** C117, refuted: an if inside a branch that is not taken ends the branch *)
Theorem C117_nested_refuted : forall dec : Z -> bytes, (Z.of_nat (length (dec 3)) < 8192)%Z ->
  let p := [Run (Num false (bs "0")); Run (If (all [Num false (bs "1"); If (all [Num false (bs "2"); Emit]); Num false (bs "3"); Emit]))] in
  program dec none [] [] p [] [] /\ exists fuel, block dec fuel fresh (text (bs " ") p) = Ok (St [] [] [] (dec 3%Z)).
Proof.
  intros dec H p. split.
  - eapply prog_run; [apply run_num; cbn; lia|]. eapply prog_run; [apply run_if_no|apply prog_end].
  - exists 6. unfold block. change (tokens (text (bs " ") p)) with (map bs ["0"; "if"; "1"; "if"; "2"; "emit"; "then"; "3"; "emit"; "then"]%string). change (bind (bind (write (dec 3%Z) (mk [] [] [] [])) (fun s => Ok (s, [bs "then"]))) (fun '(s, r) => process dec 2 s Plain r) = Ok (mk [] [] [] (dec 3%Z))).
    now rewrite write_ok.
Qed.
Print Assumptions C117_nested_refuted.

(** C117, refuted: a division by 0 does not take the number it divides *)
Theorem C117_zero_refuted : forall (dec : Z -> bytes), exists fuel, forall l d,
  length l < 254 -> block dec fuel (St l [] d []) (bs "7 0 /") = Ok (St (0%Z :: 7%Z :: l) [] d []).
Proof.
  intros dec. exists 4. intros l d H. unfold block. change (tokens (bs "7 0 /")) with (map bs ["7"; "0"; "/"]%string).
  change (bind (bind (divided Z.quot (push 0 (push 7 (mk l [] d [])))) (fun s => Ok (s, []))) (fun '(s, r) => process dec 1 s Plain r) = Ok (mk (0%Z :: 7%Z :: l) [] d [])).
  rewrite push_ok by lia. rewrite push_ok by (cbn [length]; lia). unfold divided, pop, mk. cbn [stk]. change (0 =? 0)%Z with true. cbv iota. unfold with_stk. cbn [lps dict out].
  fold (mk (7%Z :: l) [] d []). rewrite push_ok by (cbn [length]; lia). reflexivity.
Qed.
Print Assumptions C117_zero_refuted.

(** C117: a word that is not known is written as it stands *)
Theorem C117_unknown : forall (dec : Z -> bytes) (x : bytes), name x ->
  exists fuel, block dec fuel fresh x = Ok (St [] [] [] (x ++ bs " ")).
Proof.
  intros dec x N. exists 2. destruct (name_texts x N) as (A & K & C1 & _ & C2). unfold block.
  assert (T : tokens x = [x]) by (apply (tokens_joined [x]); constructor; [now apply solid_name|constructor]).
  rewrite T. change (process dec 2 (mk [] [] [] []) Plain [x] = Ok (mk [] [] [] (x ++ bs " "))).
  rewrite process_step, (beq_neq _ _ C1), (beq_neq _ _ C2). rewrite (token_key dec 0 _ _ _ (operation_none _ A) K (number_name _ N)). cbn [find dict mk].
  rewrite (write_ok (x ++ bs " ") [] [] [] []); [reflexivity|]. destruct N as (_ & _ & L). cbn [app]. rewrite app_length. change (length (bs " ")) with 1. lia.
Qed.
Print Assumptions C117_unknown.
Example C117_unknown_ex : name (bs "over") /\ name (bs "nip") /\ name (bs "tuck").
Proof.
  splits; a_name.
Qed.

(** C117, refuted: a new definition of a word changes the words defined before it *)
Theorem C117_redefined_refuted : forall dec : Z -> bytes,
  exists fuel d, block dec fuel fresh (bs ": a 1 ; : b a ; : a 2 ; b") = Ok (St [2%Z] [] d []).
Proof. intros dec. exists 30. eexists. reflexivity. Qed.
Print Assumptions C117_redefined_refuted.

(** C117, refuted: a word whose name is longer than 31 is not found *)
Theorem C117_long_refuted : forall (dec : Z -> bytes) (x : bytes),
  31 < length x < 100 -> Forall letter x ->
  exists fuel d, block dec fuel fresh (bs ": " ++ x ++ bs " 1 ; " ++ x) = Ok (St [] [] d (x ++ bs " ")).
Proof.
  intros dec x L F. assert (S1 : Forall (fun c => is_blank c = false) x) by (eapply Forall_impl; [|exact F]; intros c H; apply plain_char; now left).
  assert (T : tokens (bs ": " ++ x ++ bs " 1 ; " ++ x) = [bs ":"; x; bs "1"; bs ";"; x]).
  { change (bs ": " ++ x ++ bs " 1 ; " ++ x) with (joined [bs ":"; x; bs "1"; bs ";"; x]). apply tokens_joined.
    repeat (constructor; [split; [discriminate|repeat constructor] || (split; [intros ->; cbn in L; lia|exact S1])|]). constructor. }
  assert (M : forall y, length y <= 31 -> x <> y) by (intros y H E; rewrite E in L; lia).
  exists 6, [(firstn 31 x, bs "1")]. unfold block. rewrite T.
  change (process dec 6 (mk [] [] [] []) Plain [bs ":"; x; bs "1"; bs ";"; x] = Ok (mk [] [] [(firstn 31 x, bs "1")] (x ++ bs " "))).
  rewrite process_step. change (beq_bytes (bs ":") (bs "#end")) with false. change (beq_bytes (bs ":") (bs ":")) with true. cbv iota.
  rewrite process_step, (beq_neq x (bs "#end")) by (apply M; cbn; lia). rewrite process_step.
  change (beq_bytes (bs "1") (bs "#end")) with false. change (beq_bytes (bs "1") (bs ";")) with false. cbv iota. change (add_token [] (bs "1")) with (Ok (bs "1")). cbn [bind].
  rewrite process_step. change (beq_bytes (bs ";") (bs "#end")) with false. change (beq_bytes (bs ";") (bs ";")) with true. cbv iota.
  change (length (dict (mk [] [] [] [])) <? 128) with true. cbv iota. cbn [mk stk lps dict out]. fold (mk [] [] [(firstn 31 x, bs "1")] []).
  rewrite process_step, (beq_neq x (bs "#end")), (beq_neq x (bs ":")) by (apply M; cbn; lia).
  assert (Small : forall l, forallb (fun s => length s <=? 31) l = true -> ~ In x l).
  { intros l H J. rewrite forallb_forall in H. specialize (H _ J). apply Nat.leb_le in H. lia. }
  assert (NN : number x = None).
  { destruct x as [|c x]; [cbn in L; lia|]. apply Forall_inv in F. unfold letter in F. unfold number, unsigned.
    assert (E1 : (c =? 45)%N = false) by (apply N.eqb_neq; lia). assert (E2 : (c =? 43)%N = false) by (apply N.eqb_neq; lia). assert (E3 : (c =? 48)%N = false) by (apply N.eqb_neq; lia).
    rewrite E1, E2, E3. cbn [all_digits]. now rewrite letter_digit. }
  match goal with |- context [token dec 1 ?s x []] => change s with (mk [] [] [(firstn 31 x, bs "1")] []) end.
  rewrite (token_key dec 0 _ _ _ (operation_none _ (Small op_texts eq_refl)) (Small key_texts eq_refl) NN).
  change (dict (mk [] [] [(firstn 31 x, bs "1")] [])) with [(firstn 31 x, bs "1")]. change (find [(firstn 31 x, bs "1")] x) with (if beq_bytes (firstn 31 x) x then Some (bs "1") else None).
  rewrite (beq_neq (firstn 31 x) x) by (intros E; apply (f_equal (@length N)) in E; rewrite firstn_length in E; lia).
  rewrite (write_ok (x ++ bs " ") [] [] [(firstn 31 x, bs "1")] []); [reflexivity|].
  cbn [app]. rewrite app_length. change (length (bs " ")) with 1. lia.
Qed.
Print Assumptions C117_long_refuted.
Example C117_long_ex : let x := repeat 97%N 32 in 31 < length x < 100 /\ Forall letter x.
Proof. split; [cbn; lia|]. apply Forall_forall. intros c H. apply repeat_spec in H. subst. unfold letter. lia. Qed.

(** C117, refuted: an operation on an empty stack works with 0 and says nothing; a number that does not fit on the
    stack is left out *)
Theorem C117_underflow_refuted : forall dec : Z -> bytes, exists fuel, forall d, block dec fuel (St [] [] d []) (bs "5 -") = Ok (St [(-5)%Z] [] d []).
Proof. intros dec. exists 5. intros d. reflexivity. Qed.
Print Assumptions C117_underflow_refuted.
Theorem C117_overflow_refuted : forall dec : Z -> bytes, exists fuel, forall l d o, length l = 256 -> block dec fuel (St l [] d o) (bs "5") = Ok (St l [] d []).
Proof.
  intros dec. exists 3. intros l d o H. change (Ok (push 5 (St l [] d [])) = Ok (St l [] d [])). unfold push. cbn [stk]. rewrite H. reflexivity.
Qed.
Print Assumptions C117_overflow_refuted.

(** C117: a block starts with the stack and the words that the block before it left *)
Theorem C117_carried : forall (dec : Z -> bytes) v l d o, (Z.of_nat (length (dec v)) < 8192)%Z ->
  exists fuel, block dec fuel (St (v :: l) [] d o) (bs "emit") = Ok (St l [] d (dec v)).
Proof.
  intros dec v l d o H. exists 2. change (bind (bind (write (dec v) (mk l [] d [])) (fun s => Ok (s, []))) (fun '(s, r) => process dec 1 s Plain r) = Ok (mk l [] d (dec v))).
  now rewrite write_ok.
Qed.
Print Assumptions C117_carried.

(** C117: i outside a loop, and a do without its loop, are errors *)
Theorem C117_index : forall dec : Z -> bytes, exists fuel, forall l d o, block dec fuel (St l [] d o) (bs "i") = Panic /\ block dec fuel (St l [] d o) (bs "3 0 do i emit") = Panic.
Proof.
  intros dec. exists 6. intros l d o. split; [reflexivity|].
  change (bind (let '(a, s) := pop (push 0 (push 3 (St l [] d []))) in let '(b, s) := pop s in (Panic : res (st * list bytes))) (fun '(s, r) => process dec 3 s Plain r) = Panic).
  destruct (pop (push 0 (push 3 (St l [] d [])))) as [a s]. now destruct (pop s).
Qed.
Print Assumptions C117_index.

(** C117, refuted: a word that calls itself never comes back *)
Theorem C117_recursion_refuted : forall (dec : Z -> bytes) fuel, block dec fuel fresh (bs ": a a ; a") = Fuel.
Proof.
  intros dec.
  assert (B : forall f, body dec f (St [] [] [(bs "a", bs "a")] []) [bs "a"] = Fuel /\ token dec f (St [] [] [(bs "a", bs "a")] []) (bs "a") [] = Fuel).
  { induction f as [|f [IH1 IH2]]; [split; reflexivity|]. split.
    - change (bind (token dec f (St [] [] [(bs "a", bs "a")] []) (bs "a") []) (fun '(s, r) => body dec f s r) = Fuel). now rewrite IH2.
    - change (bind (body dec f (St [] [] [(bs "a", bs "a")] []) [bs "a"]) (fun s => Ok (s, @nil bytes)) = Fuel). now rewrite IH1. }
  intros fuel. destruct fuel as [|[|[|[|[|f]]]]]; try reflexivity.
  change (bind (token dec f (St [] [] [(bs "a", bs "a")] []) (bs "a") []) (fun '(s, r) => process dec f s Plain r) = Fuel). now rewrite (proj2 (B f)).
Qed.
Print Assumptions C117_recursion_refuted.
