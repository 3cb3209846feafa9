(** C113: Befunge blocks. *)
From Verif Require Import Common Befunge_Model Befunge_Spec Befunge_Proofs.
Local Open Scope nat_scope.

(** The program is the text of the block behind its first newlines, cut at 80 columns and 25 lines, blank elsewhere; reading it writes only inside the grid. *)
Theorem C113_load : forall newlines text, (forall c, In c newlines -> c = 10%N \/ c = 13%N) -> (forall c t, text = c :: t -> c <> 10%N /\ c <> 13%N) ->
  exists g, load (newlines ++ text) = Ok g /\ forall r c, r < 25 -> c < 80 -> g r c = nth c (nth r (lines text) []) 32%N.
Proof.
  intros nls text N T. assert (E : skip_newlines (nls ++ text) = text).
  { induction nls as [|c nls IH]; cbn [app].
    - destruct text as [|c t]; [reflexivity|]. destruct (T c t eq_refl) as (A & B). cbn [skip_newlines]. apply N.eqb_neq in A, B. now rewrite A, B.
    - cbn [skip_newlines]. destruct (N c (or_introl eq_refl)) as [-> | ->]; cbn [N.eqb Pos.eqb orb]; apply IH; intros d D; apply N; now right. }
  destruct (load_spec (nls ++ text)) as (g & L & G). rewrite E in G. eauto.
Qed.
Print Assumptions C113_load.
Definition hello : bytes := bs """iH"">:#,_@".
Example C113_load_used : lines (bs "v" ++ [10%N] ++ bs ">@") = [bs "v"; bs ">@"]. Proof. reflexivity. Qed.

(** Step for step the code written for a block does what Befunge-93 says, prints the same and ends when it ends, as long as every step is one the plugin handles. *)
Theorem C113_run_partial : forall newlines text n, (forall c, In c newlines -> c = 10%N \/ c = 13%N) -> (forall c t, text = c :: t -> c <> 10%N /\ c <> 13%N) ->
  (forall r c, r < 25 -> c < 80 -> torus_of text (Z.of_nat r) (Z.of_nat c) <> 39%Z) ->
  (forall k s, k < n -> bsteps k (begin (torus_of text)) = inl s -> handled s) ->
  match bsteps n (begin (torus_of text)) with
  | inl s => exists m, run n (newlines ++ text) = Ok (inl m) /\ printed m = said s /\ firstn (sp m) (stack m) = rev (vals s)
  | inr s => exists m, run n (newlines ++ text) = Ok (inr m) /\ printed m = said s /\ firstn (sp m) (stack m) = rev (vals s)
  end.
Proof.
  intros nls text n N T Q H. destruct (C113_load nls text N T) as (g & L & G).
  assert (S : same g start (begin (torus_of text))).
  { constructor; try (cbn [start begin x y dx dy col row dcol drow]; lia); try reflexivity.
    - intros i j I J. unfold begin, torus_of. cbn [cells]. rewrite G by lia. reflexivity. }
  assert (C : compiles g = true).
  { unfold compiles. apply forallb_forall. intros r R. apply in_seq in R. apply forallb_forall. intros c K. apply in_seq in K. unfold BF_H, BF_W in *.
    apply negb_true_iff, N.eqb_neq. rewrite G by lia. intros E. apply (Q r c); [lia|lia|]. unfold torus_of. rewrite !Nat2Z.id, E. reflexivity. }
  unfold run. rewrite L. cbn [bind]. rewrite C. pose proof (steps_same g n start (begin (torus_of text)) S H) as R.
  destruct (bsteps n (begin (torus_of text))) as [s|s]; destruct R as (m & R & []); eauto.
Qed.
Print Assumptions C113_run_partial.
Ltac hnd := split; [intros X; discriminate X|intros _; cbv zeta; splits;
  [vm_compute; lia|intros _; vm_compute; reflexivity|intros X; first [discriminate X|unfold fits; vm_compute; split; congruence]|intros X; discriminate X|intros X; discriminate X|intros [X|X]; discriminate X|intros X; discriminate X|intros X; discriminate X|intros X; discriminate X]].
(** a program that adds, prints and ends, and what a handled state is *)
Example C113_run_used : exists s, bsteps 6 (begin (torus_of (bs "34+.@"))) = inr s /\ said s = [ONum 7] /\ forall k t, k < 6 -> bsteps k (begin (torus_of (bs "34+.@"))) = inl t -> handled t.
Proof.
  eexists. splits; [reflexivity|reflexivity|]. intros k t K E.
  do 5 (destruct k as [|k]; [injection E as <-; hnd|]).
  destruct k as [|k]; [discriminate E|lia].
Qed.

(** False of strings: instructions between quotes are carried out instead of being pushed, and blanks are left out. *)
Theorem C113_string_refuted : forall g m s, same g m s -> quoted s = true ->
  (cells s (row s) (col s) = 32%Z -> step g m = Ok (inl (move m)) /\ instr s = Some (vals_ s (32%Z :: vals s)))
  /\ (cells s (row s) (col s) = 64%Z -> step g m = Ok (inr m) /\ instr s = Some (vals_ s (64%Z :: vals s)))
  /\ (cells s (row s) (col s) = 118%Z -> step g m = Ok (inl (move (turn m 0 1))) /\ instr s = Some (vals_ s (118%Z :: vals s)))
  /\ (cells s (row s) (col s) = 46%Z -> vals s = [] -> step g m = UB /\ instr s = Some (vals_ s [46%Z])).
Proof.
  intros g m s S Q. pose proof S as [(X & Y & X1 & Y1) D ST PR SP LN VL CE]. specialize (CE (row s) (col s) Y1 X1). unfold step, instr, instr_at. cbv zeta. rewrite Q.
  replace ((0 <=? y m) && (y m <? 25) && (0 <=? x m) && (x m <? 80))%Z with true by (symmetry; rewrite !andb_true_iff, !Z.leb_le, !Z.ltb_lt; lia). rewrite X, Y.
  splits; intros E; rewrite E in CE; rewrite E.
  - replace (g (Z.to_nat (row s)) (Z.to_nat (col s))) with 32%N by lia. split; reflexivity.
  - replace (g (Z.to_nat (row s)) (Z.to_nat (col s))) with 64%N by lia. split; reflexivity.
  - replace (g (Z.to_nat (row s)) (Z.to_nat (col s))) with 118%N by lia. split; reflexivity.
  - intros V. replace (g (Z.to_nat (row s)) (Z.to_nat (col s))) with 46%N by lia. rewrite V in *. split; [|reflexivity]. change (cell_code 46) with CNum. cbn [statement]. unfold pop. rewrite SP. reflexivity.
Qed.
Print Assumptions C113_string_refuted.
Example C113_string_used : exists t, bsteps 3 (begin (torus_of (bs """a b"".@"))) = inl t /\ cells t (row t) (col t) = 98%Z /\ vals t = [32; 97]%Z /\ quoted t = true
  /\ exists m, run 3 (bs """a b"".@") = Ok (inl m) /\ firstn (sp m) (stack m) = [97%Z].
Proof. eexists. splits; [reflexivity|reflexivity|reflexivity|reflexivity|]. eexists. split; vm_compute; reflexivity. Qed.

(** False of an empty stack: the language gives zeros, the code reads in front of its array; and a value more than 1024 is written behind it. *)
Theorem C113_stack_refuted : forall g m, (0 <= y m < 25)%Z -> (0 <= x m < 80)%Z -> let c := g (Z.to_nat (y m)) (Z.to_nat (x m)) in
  (sp m = 0 -> In c [43; 45; 42; 47; 37; 33; 96; 46; 44; 95; 124]%N -> step g m = UB)
  /\ (sp m = 1 -> In c [43; 45; 42; 47; 37; 96]%N -> step g m = UB)
  /\ (sp m = length (stack m) -> (48 <= c <= 57)%N -> step g m = UB).
Proof.
  intros g m Y X c. unfold step.
  replace ((0 <=? y m) && (y m <? 25) && (0 <=? x m) && (x m <? 80))%Z with true by (symmetry; rewrite !andb_true_iff, !Z.leb_le, !Z.ltb_lt; lia). fold c. clearbody c. splits; intros S I.
  - cbn [In] in I. repeat (destruct I as [<-|I]; [match goal with |- context [cell_code ?k] => let v := eval vm_compute in (cell_code k) in change (cell_code k) with v end; cbn [statement]; unfold binary, pop; rewrite S; reflexivity|]). destruct I.
  - cbn [In] in I. repeat (destruct I as [<-|I]; [match goal with |- context [cell_code ?k] => let v := eval vm_compute in (cell_code k) in change (cell_code k) with v end; cbn [statement]; unfold binary, pop; rewrite S; unfold get; destruct (nth_error (stack m) 0); reflexivity|]). destruct I.
  - unfold cell_code. replace (c =? 32)%N with false by (symmetry; apply N.eqb_neq; lia). replace ((48 <=? c) && (c <=? 57))%N with true by (symmetry; rewrite andb_true_iff, !N.leb_le; lia).
    cbn [statement]. unfold push, set. rewrite S, Nat.ltb_irrefl. reflexivity.
Qed.
Print Assumptions C113_stack_refuted.
Example C113_stack_used : run 1 (bs "+@") = UB /\ match bsteps 2 (begin (torus_of (bs "+@"))) with inr s => vals s = [0%Z] | inl _ => False end. Proof. split; vm_compute; reflexivity. Qed.

(** False of a bridge at the edge: it should jump over the cell at the other edge, and the code lands on that cell. *)
Theorem C113_bridge_refuted : forall g m s, same g m s -> quoted s = false -> cells s (row s) (col s) = 35%Z -> col s = 79%Z -> dcol s = 1%Z -> drow s = 0%Z ->
  (exists m', step g m = Ok (inl m') /\ x m' = 0%Z) /\ exists s', bstep s = inl s' /\ col s' = 1%Z.
Proof.
  intros g m s S Q E C DC DR. pose proof S as [(X & Y & X1 & Y1) (DX & DY & _) ST PR SP LN VL CE]. specialize (CE (row s) (col s) Y1 X1). rewrite E in CE. split.
  - unfold step. replace ((0 <=? y m) && (y m <? 25) && (0 <=? x m) && (x m <? 80))%Z with true by (symmetry; rewrite !andb_true_iff, !Z.leb_le, !Z.ltb_lt; lia). rewrite X, Y.
    replace (g (Z.to_nat (row s)) (Z.to_nat (col s))) with 35%N by lia. eexists. split; [reflexivity|]. cbn [move x dx]. rewrite X, DX, C, DC. reflexivity.
  - unfold bstep, instr, instr_at. cbv zeta beta. rewrite Q, E. eexists. split; [reflexivity|]. cbn [forward col dcol]. rewrite C, DC. reflexivity.
Qed.
Print Assumptions C113_bridge_refuted.
Example C113_bridge_used : exists s, cells s (row s) (col s) = 35%Z /\ col s = 79%Z /\ dcol s = 1%Z /\ quoted s = false. Proof. exists (B 79 0 1 0 false [] (torus_of (repeat 35%N 80)) []). splits; reflexivity. Qed.

(** False of programs that read or change themselves, or read input or chance: g, p, &, ~ and ? do nothing. *)
Theorem C113_missing_refuted : forall g m c, (0 <= y m < 25)%Z -> (0 <= x m < 80)%Z -> g (Z.to_nat (y m)) (Z.to_nat (x m)) = c -> In c (bs "gp&~?") -> str m = false -> step g m = Ok (inl (move m)).
Proof.
  intros g m c Y X E I S. unfold step. replace ((0 <=? y m) && (y m <? 25) && (0 <=? x m) && (x m <? 80))%Z with true by (symmetry; rewrite !andb_true_iff, !Z.leb_le, !Z.ltb_lt; lia). rewrite E.
  change (bs "gp&~?") with [103; 112; 38; 126; 63]%N in I. cbn [In] in I.
  repeat (destruct I as [<-|I]; [match goal with |- context [cell_code ?k] => let v := eval vm_compute in (cell_code k) in change (cell_code k) with v end; cbn [statement]; rewrite S; reflexivity|]). destruct I.
Qed.
Print Assumptions C113_missing_refuted.
Example C113_missing_used : exists s, bsteps 3 (begin (torus_of (bs "00g@"))) = inl s /\ vals s = [48%Z]. Proof. eexists. split; reflexivity. Qed.

(** False of a program with a single quote, anywhere in its 25 lines: the C code has an unfinished character. *)
Theorem C113_quote_refuted : forall body g r c n, load body = Ok g -> r < 25 -> c < 80 -> g r c = 39%N -> run n body = Panic.
Proof.
  intros body g r c n L R C E. unfold run. rewrite L. cbn [bind]. destruct (compiles g) eqn:K; [|reflexivity]. unfold compiles in K.
  rewrite forallb_forall in K. specialize (K r). rewrite forallb_forall in K. specialize (K ltac:(apply in_seq; unfold BF_H; lia) c ltac:(apply in_seq; unfold BF_W; lia)). rewrite E in K. discriminate.
Qed.
Print Assumptions C113_quote_refuted.
Example C113_quote_used : exists g, load (bs "@ 'x") = Ok g /\ g 0 2 = 39%N. Proof. destruct (C113_load [] (bs "@ 'x")) as (g & L & G); [intros c []|intros c t E; injection E as <- <-; split; discriminate|]. exists g. split; [exact L|]. now rewrite G by lia. Qed.
