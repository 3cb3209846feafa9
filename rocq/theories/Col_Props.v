From Verif Require Import Common Io_Model Diag_Model Diag_Spec Col_Model Col_Spec Col_Proofs.
Local Open Scope nat_scope.

Definition sample : list piece := [Colour (bs "1;31"); Words (bs "error: "); Colour (bs "0"); Words (bs "no main [m]")].
Definition file_of (r : nat) : world := World false true r (bs "junk").
Example C121_witness : Forall proper sample /\ print (file_of 100) (coloured_text sample) = Ok (bs "error: no main [m]", 18%Z).
Proof.
  split; [|reflexivity]. unfold sample. repeat (apply Forall_cons; [split; intros I; repeat (destruct I as [I|I]; [discriminate|]); destruct I|]). constructor.
Qed.

(** C121: not on a terminal, the words of a text in colours are written, all of them and nothing else, whatever its
    length and whatever was in the buffer; the value returned is their number *)
Theorem C121_words_partial : forall k (l : list piece), tty k = false -> memory k = true \/ length (coloured_text l) < 4096 -> Forall proper l -> length (words l) <= room k ->
  print k (coloured_text l) = Ok (words l, Z.of_nat (length (words l))).
Proof.
  intros k l T M P R. rewrite print_ok; [|exact T|now apply clear_pieces|exact M]. rewrite bare_pieces by exact P. now rewrite firstn_all2.
Qed.
Print Assumptions C121_words_partial.
(** C121: so for any number of calls *)
Theorem C121_calls_partial : forall k (ls : list (list piece)), tty k = false -> memory k = true -> Forall (fun l => Forall proper l /\ length (words l) <= room k) ls ->
  prints k (map coloured_text ls) = Ok (concat (map words ls)).
Proof.
  intros k ls T M F. induction F as [|l ls [P R] _ IH]; [reflexivity|]. cbn [map prints concat]. rewrite C121_words_partial by auto. cbn [bind]. rewrite IH. reflexivity.
Qed.
Print Assumptions C121_calls_partial.
(** C121: a text without escapes is written as it is; on a terminal every text is *)
Theorem C121_same : forall k s, tty k = true \/ (tty k = false /\ ~ In 27%N s /\ ~ In 0%N s /\ length s < 4096 /\ length s <= room k) -> print k s = Ok (s, Z.of_nat (length s)).
Proof.
  intros k s [T|(T & E & Z & L & R)]; [unfold print; now rewrite T|]. rewrite print_ok; [|assumption|exact Z|now right].
  assert (B : bare false s = s) by (rewrite <- (app_nil_r s) at 1; rewrite bare_words by exact E; apply app_nil_r). rewrite B. now rewrite firstn_all2.
Qed.
Print Assumptions C121_same.
(** C121: any text is handled inside the buffer, and never grows *)
Theorem C121_safe : forall k s, ~ In 0%N s -> exists out n, print k s = Ok (out, n) /\ length out <= length s.
Proof.
  intros k s Z. destruct (tty k) eqn:T; [exists s, (Z.of_nat (length s)); unfold print; rewrite T; split; [reflexivity|lia]|].
  destruct ((4096 <=? length s) && negb (memory k)) eqn:E; [exists [], (-1)%Z; unfold print; rewrite T, E; split; [reflexivity|cbn; lia]|].
  rewrite print_ok; [|exact T|exact Z|].
  - eexists _, _. split; [reflexivity|]. rewrite firstn_length.
    assert (B : forall i, length (bare i s) <= length s); [|specialize (B false); lia].
    clear. induction s as [|c s IH]; intros i; [cbn; lia|]. cbn [bare]. destruct i; [specialize (IH (negb (c =? 109)%N)); cbn [length]; lia|].
    destruct ((c =? 27)%N && bracket s); [specialize (IH true)|specialize (IH false)]; cbn [length]; lia.
  - apply andb_false_iff in E as [E|E]; [right; now apply Nat.leb_gt|left; now apply negb_false_iff].
Qed.
Print Assumptions C121_safe.
(** C121: what a file gets is what a terminal shows (C119), if each escape begins a change of colour *)
Theorem C121_visible_partial : forall k x, tty k = false -> memory k = true -> ~ In 0%N x -> length x <= room k -> (forall a b, x = a ++ 27%N :: b -> exists b', b = 91%N :: b') ->
  exists n, print k x = Ok (visible x, n).
Proof.
  intros k x T M Z R W. rewrite print_ok; [|exact T|exact Z|now left].
  assert (B : forall i, bare i x = seen i x).
  { clear - W. induction x as [|c x IH]; intros i; [reflexivity|]. assert (W' : forall a b, x = a ++ 27%N :: b -> exists b', b = 91%N :: b') by (intros a b ->; apply (W (c :: a)); reflexivity).
    cbn [bare seen]. destruct i; [now apply IH|]. destruct (N.eqb_spec c 27) as [->|_]; cbn [andb].
    - destruct (W [] x eq_refl) as [x' Ex]. subst x. cbn [bracket]. change (91 =? 91)%N with true. cbv iota. now apply IH.
    - now rewrite IH. }
  rewrite B. eexists. unfold visible. rewrite firstn_all2; [reflexivity|]. rewrite <- B. 
  assert (L : forall s i, length (bare i s) <= length s).
  { clear. induction s as [|c s IH]; intros i; [cbn; lia|]. cbn [bare]. destruct i; [specialize (IH (negb (c =? 109)%N)); cbn [length]; lia|].
    destruct ((c =? 27)%N && bracket s); [specialize (IH true)|specialize (IH false)]; cbn [length]; lia. }
  specialize (L x false). unfold bytes in *. lia.
Qed.
Print Assumptions C121_visible_partial.
Example C121_visible_witness :
  let x := blue ++ bs "  --> " ++ reset ++ bs "a.zc:1:1" in
  (forall a b, x = a ++ 27%N :: b -> exists b', b = 91%N :: b') /\ print (file_of 100) x = Ok (bs "  --> a.zc:1:1", 14%Z).
Proof.
  split; [|reflexivity].
  assert (G : forall x a b, (fix ok (s : bytes) : bool := match s with [] => true | c :: r => (negb (c =? 27)%N || bracket r) && ok r end) x = true -> x = a ++ 27%N :: b -> exists b', b = 91%N :: b').
  { clear. intros x a. revert x. induction a as [|d a IH]; intros x b H ->; cbn [app] in H.
    - apply andb_true_iff in H as [H _]. destruct b as [|c b]; [discriminate|]. cbn in H. apply N.eqb_eq in H. subst. eauto.
    - apply andb_true_iff in H as [_ H]. exact (IH _ b H eq_refl). }
  intros a b. apply G. reflexivity.
Qed.

(** C121, refuted: all output goes this way, the C file too: a string literal of the program with an escape and a bracket
    in it loses what is behind them up to the next m, and with none its closing quote *)
Theorem C121_literal_refuted : forall k a codes b, tty k = false -> memory k = true -> ~ In 0%N (a ++ codes ++ b) -> ~ In 27%N a -> ~ In 27%N b -> ~ In 109%N codes -> length a + length b + 2 <= room k ->
  (exists n, literal k (a ++ sequence codes ++ b) = Ok ([34%N] ++ a ++ b ++ [34%N], n)) /\
  (exists n, literal k (a ++ [27%N; 91%N] ++ codes) = Ok ([34%N] ++ a, n)).
Proof.
  intros k a w b T M Z Ea Eb Mw R. rewrite !in_app_iff in Z. unfold literal. split.
  - assert (P : Forall proper [Words (34%N :: a); Colour w; Words (b ++ [34%N])]).
    { repeat (apply Forall_cons; [cbn [proper In]; rewrite ?in_app_iff; cbn [In]; split; intros I; (intuition discriminate)|]). constructor. }
    pose proof (C121_words_partial k _ T (or_introl M) P) as H. unfold coloured_text, words in H. cbn [flat_map app] in H. rewrite !app_nil_r in H.
    replace ([34%N] ++ (a ++ sequence w ++ b) ++ [34%N]) with (34%N :: a ++ sequence w ++ b ++ [34%N]) by (cbn [app]; now rewrite <- !app_assoc).
    eexists. apply H. cbn [length]. rewrite !app_length. cbn [length]. lia.
  - rewrite print_ok; [|exact T| |now left].
    + replace ([34%N] ++ (a ++ [27%N; 91%N] ++ w) ++ [34%N]) with ((34%N :: a) ++ 27%N :: 91%N :: w ++ [34%N]) by (cbn [app]; now rewrite <- !app_assoc).
      rewrite bare_words by (intros [I|I]; [discriminate|auto]). cbn [bare bracket]. change ((27 =? 27)%N && (91 =? 91)%N) with true. change (negb (91 =? 109)%N) with true. cbv iota.
      rewrite bare_out; [|rewrite in_app_iff; intros [I|[I|[]]]; [auto|discriminate]]. rewrite app_nil_r. eexists. rewrite firstn_all2; [reflexivity|]. cbn [length]. lia.
    + unfold clear. rewrite !in_app_iff. cbn [In]. intuition discriminate.
Qed.
Print Assumptions C121_literal_refuted.
Example C121_literal_witness : literal (file_of 100) (bs "a" ++ sequence (bs "1") ++ bs "b") = Ok ([34%N] ++ bs "ab" ++ [34%N], 4%Z) /\ literal (file_of 100) (bs "a" ++ [27%N; 91%N] ++ bs "2J") = Ok ([34%N] ++ bs "a", 2%Z).
Proof. split; reflexivity. Qed.
(** C121, refuted: a write that fails is not reported, a byte 0 ends the text, and without memory a long text is dropped *)
Theorem C121_full_refuted : forall s j, ~ In 27%N s -> ~ In 0%N s -> print (World false true 0 j) s = Ok ([], Z.of_nat (length s)).
Proof.
  intros s j E Z. rewrite print_ok; [|reflexivity|exact Z|now left]. assert (B : bare false s = s) by (rewrite <- (app_nil_r s) at 1; rewrite bare_words by exact E; apply app_nil_r). now rewrite B.
Qed.
Print Assumptions C121_full_refuted.
Theorem C121_zero_refuted : forall r j, print (World false true r j) (bs "a" ++ [0%N] ++ bs "b") = Ok (firstn r (bs "a"), 1%Z).
Proof. reflexivity. Qed.
Print Assumptions C121_zero_refuted.
Theorem C121_memory_refuted : forall k s, tty k = false -> memory k = false -> 4096 <= length s -> print k s = Ok ([], (-1)%Z).
Proof. intros k s T M L. unfold print. rewrite T, M. apply Nat.leb_le in L. rewrite L. reflexivity. Qed.
Print Assumptions C121_memory_refuted.
