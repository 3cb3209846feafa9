(** C57: floating-point literals. *)
From Coq Require Import QArith Lqa.
From Verif Require Import Common IntLit_Model IntLit_Spec IntLit_Proofs FloatLit_Model FloatLit_Spec FloatLit_Proofs.
Local Open Scope N_scope.

(** Only values up to 10^394 are printed by the model's %f (doubles are below 10^309). *)
Definition is_double_size (r : Q) : Prop := (0 <= r /\ r <= inject_Z (Z.of_N (10 ^ 309)))%Q.

Lemma size_gen (B Y : N) r : 0 < B -> 1 <= Y -> (0 <= r)%Q -> (r <= inject_Z (Z.of_N B))%Q ->
  round_div (Z.to_N (Qnum r) * 1000000) (Npos (Qden r)) / 1000000 < 10 * Y * B.
Proof.
  intros HB HY P U. destruct r as [x d]. unfold Qle, inject_Z in P, U. cbn [Qnum Qden] in *. 
  pose proof (round_div_near (Z.to_N x * 1000000) (Npos d) ltac:(lia)) as [A _].
  set (m := round_div (Z.to_N x * 1000000) (Npos d)) in *.
  assert (X : Z.to_N x <= B * Npos d) by lia.
  assert (M : m <= B * 1000000 + 1) by nia.
  apply N.div_lt_upper_bound; [lia|]. apply N.le_lt_trans with (B * 1000000 + 1); [exact M|].
  apply N.lt_le_trans with (B * 1000000 * 10); [lia|]. nia.
Qed.
Lemma pow_pos_le a : 1 <= 10 ^ a.
Proof. apply (N.le_succ_l 0). apply N.neq_0_lt_0. apply N.pow_nonzero. discriminate. Qed.
Lemma pow_split a b : 10 * 10 ^ a * 10 ^ b = 10 ^ (N.succ a + b).
Proof. now rewrite N.pow_add_r, N.pow_succ_r'. Qed.
Lemma size_ok r : is_double_size r -> round_div (Z.to_N (Qnum r) * 1000000) (Npos (Qden r)) / 1000000 < 10 ^ 400.
Proof.
  intros [P U]. change 400 with (N.succ 90 + 309). rewrite <- pow_split.
  apply size_gen; [|apply pow_pos_le|exact P|exact U]. apply (N.lt_le_trans 0 1); [reflexivity|apply pow_pos_le].
Qed.

(** The emitted constant is a well-formed C constant within half a millionth of the double
    that the literal was read as. *)
Theorem C57_error atof text : is_double_size (atof text) ->
  exists q, Constant (emit_float atof text) q /\ near q (atof text) half_millionth.
Proof.
  intros S. eexists. split; [apply print_constant; now apply size_ok|]. apply printf_near. apply S.
Qed.
(** A literal that is a whole number of millionths keeps its exact value, if the library
    reads it with an error below half a millionth.  Missing from the full claim: every other
    literal ([C57_precision_refuted], [C57_small_refuted]). *)
Theorem C57_millionths_partial atof text rest q n : Constant text q -> (q == Z.of_N n # 1000000)%Q ->
  is_double_size (atof (text ++ rest)) ->
  (atof (text ++ rest) - q < half_millionth /\ q - atof (text ++ rest) < half_millionth)%Q ->
  Constant (emit_float atof (text ++ rest)) q.
Proof.
  intros _ E S [D1 D2]. unfold emit_float, printf_f.
  set (r := atof (text ++ rest)) in *. 
  pose proof (printf_near r (proj1 S)) as [N1 N2]. pose proof (print_constant _ (size_ok r S)) as K.
  set (m := round_div (Z.to_N (Qnum r) * 1000000) (Npos (Qden r))) in *.
  assert (M : m = n).
  { unfold half_millionth in *. 
    assert (X1 : ((Z.of_N m # 1000000) - (Z.of_N n # 1000000) < 1 # 1000000)%Q) by (rewrite <- E; lra).
    assert (X2 : ((Z.of_N n # 1000000) - (Z.of_N m # 1000000) < 1 # 1000000)%Q) by (rewrite <- E; lra).
    unfold Qlt, Qminus, Qplus, Qopp in X1, X2. cbn [Qnum Qden] in *. lia. }
  rewrite M in K at 3. exact (constant_eq _ _ _ K E).
Qed.
(** Every literal read as less than half a millionth becomes zero. *)
Theorem C57_small_refuted atof text : (0 <= atof text)%Q -> (atof text < half_millionth)%Q ->
  emit_float atof text = bs "0.000000".
Proof.
  intros P L. unfold emit_float, printf_f. set (r := atof text) in *. destruct r as [x d]. cbn [Qnum Qden].
  unfold Qlt, Qle, half_millionth in *. cbn [Qnum Qden] in *.
  assert (E : round_div (Z.to_N x * 1000000) (Npos d) = 0).
  { unfold round_div. rewrite (N.div_small (Z.to_N x * 1000000) (Npos d)) by lia. rewrite N.mod_small by lia.
    destruct (N.ltb_spec (2 * (Z.to_N x * 1000000)) (Npos d)); [reflexivity|lia]. }
  rewrite E. reflexivity.
Qed.
(** In general the emitted constant differs from every value that is not near a whole number
    of millionths: a literal between two millionths changes by at least its distance to the
    nearer one. *)
Theorem C57_precision_refuted atof text q n : is_double_size (atof text) ->
  ((Z.of_N n # 1000000) < q)%Q -> (q < (Z.of_N n + 1) # 1000000)%Q -> ~ Constant (emit_float atof text) q.
Proof.
  intros S L U C. pose proof (print_constant _ (size_ok _ S)) as K.
  pose proof (constant_fun _ _ _ C K) as E. rewrite E in L, U. unfold Qlt in L, U. cbn [Qnum Qden] in L, U. lia.
Qed.

Definition ex_q1 : Q := 1 # 400.
Definition ex_q2 : Q := 123456789 # 100.
Example C57_ex : Constant (bs "2.5e-3") ex_q1 /\ Qeq ex_q1 (Z.of_N 2500 # 1000000) /\
  emit_float (fun _ => ex_q1) (bs "2.5e-3;") = bs "0.002500" /\
  emit_float (fun _ => ex_q2) (bs "1234567.89") = bs "1234567.890000".
Proof.
  splits; try reflexivity.
  change (bs "2.5e-3") with ([50] ++ 46 :: [53] ++ 101 :: 45 :: [51])%N. 
  apply (Const [50]%N [53]%N _ 25 (-3)); [discriminate| | |vm_compute; reflexivity].
  - apply (Num_more 10 [50]%N 2 53 5); [|now apply (D_dec 10 5)]. apply Num_one. now apply (D_dec 10 2).
  - apply (X_neg 101 [51]%N 3); [now left|]. apply Num_one. now apply (D_dec 10 3).
Qed.
(** 0.0000004 is a positive constant, and is emitted as 0. *)
Definition ex_q3 : Q := 4 # 10000000.
Example C57_ex_small : Constant (bs "0.0000004") ex_q3 /\ emit_float (fun _ => ex_q3) (bs "0.0000004") = bs "0.000000".
Proof.
  split; [|reflexivity]. change (bs "0.0000004") with ([48] ++ 46 :: [48;48;48;48;48;48;52] ++ [])%N.
  apply (Const [48]%N [48;48;48;48;48;48;52]%N [] 4 0); [discriminate| |constructor|vm_compute; reflexivity].
  change ([48] ++ [48;48;48;48;48;48;52])%N with (((((((([48] ++ [48]) ++ [48]) ++ [48]) ++ [48]) ++ [48]) ++ [48]) ++ [52]))%N.
  apply (Num_more 10 _ 0 52 4); [|now apply (D_dec 10 4)].
  repeat (apply (Num_more 10 _ 0 48 0); [|now apply (D_dec 10 0)]). apply Num_one. now apply (D_dec 10 0).
Qed.
Print Assumptions C57_error.
Print Assumptions C57_millionths_partial.
Print Assumptions C57_small_refuted.
Print Assumptions C57_precision_refuted.
