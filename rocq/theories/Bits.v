(** Bit operations on [N] as arithmetic; big-endian bit strings. *)
From Verif Require Import Common.
Local Open Scope N_scope.

(** xor, or, and on words bounded by a power of two *)
Lemma bits_bound x k : (forall i, k <= i -> N.testbit x i = false) -> x < 2 ^ k.
Proof.
  intros H.
  destruct (N.eq_dec (x mod 2 ^ k) x) as [E|E].
  - rewrite <- E. apply N.mod_lt, N.pow_nonzero. lia.
  - exfalso. apply E. apply N.bits_inj. intros i. destruct (N.lt_ge_cases i k).
    + now rewrite N.mod_pow2_bits_low.
    + now rewrite N.mod_pow2_bits_high, H.
Qed.
Lemma bound_bits x k i : x < 2 ^ k -> k <= i -> N.testbit x i = false.
Proof.
  intros H L. rewrite <- (N.mod_small x (2 ^ k)) by auto. now apply N.mod_pow2_bits_high.
Qed.
Lemma lxor_bound x y k : x < 2 ^ k -> y < 2 ^ k -> N.lxor x y < 2 ^ k.
Proof. intros. apply bits_bound. intros. now rewrite N.lxor_spec, !(bound_bits _ k). Qed.
Lemma lor_bound x y k : x < 2 ^ k -> y < 2 ^ k -> N.lor x y < 2 ^ k.
Proof. intros. apply bits_bound. intros. now rewrite N.lor_spec, !(bound_bits _ k). Qed.
Lemma land_bound x y k : x < 2 ^ k -> N.land x y < 2 ^ k.
Proof. intros. apply bits_bound. intros. now rewrite N.land_spec, (bound_bits _ k). Qed.

Lemma lor_add x y k : y < 2 ^ k -> N.lor (x * 2 ^ k) y = x * 2 ^ k + y.
Proof.
  intros H. assert (D : N.land (x * 2 ^ k) y = 0).
  { apply N.bits_inj. intros i. rewrite N.land_spec, N.bits_0. destruct (N.lt_ge_cases i k).
    - now rewrite N.mul_pow2_bits_low.
    - rewrite (bound_bits y k i) by auto. apply andb_false_r. }
  rewrite <- N.lxor_lor by exact D. now rewrite <- N.add_nocarry_lxor.
Qed.

Lemma land_mask x k : N.land x (2 ^ k - 1) = x mod 2 ^ k.
Proof. rewrite <- N.land_ones. f_equal. rewrite N.ones_equiv. lia. Qed.

(** Big-endian bits: most significant first. *)
Fixpoint bits_be (w : nat) (n : N) : list bool :=
  match w with
  | O => []
  | S w => N.testbit n (N.of_nat w) :: bits_be w n
  end.
Fixpoint val_be (l : list bool) : N :=
  match l with
  | [] => 0
  | b :: l => N.b2n b * 2 ^ N.of_nat (length l) + val_be l
  end.

Lemma length_bits_be w n : length (bits_be w n) = w.
Proof. induction w; cbn; auto. Qed.

Lemma val_bits_be w n : val_be (bits_be w n) = n mod 2 ^ N.of_nat w.
Proof.
  induction w.
  - cbn. now rewrite N.mod_1_r.
  - cbn [bits_be val_be]. rewrite length_bits_be, IHw, N.testbit_spec'.
    rewrite Nat2N.inj_succ, N.pow_succ_r', (N.mul_comm 2).
    rewrite N.mod_mul_r by (try apply N.pow_nonzero; lia). lia.
Qed.

Lemma val_be_bound l : val_be l < 2 ^ N.of_nat (length l).
Proof.
  induction l; cbn [val_be length].
  - cbn. lia.
  - rewrite Nat2N.inj_succ, N.pow_succ_r'. destruct a; cbn [N.b2n]; lia.
Qed.

Lemma bits_val_be l : bits_be (length l) (val_be l) = l.
Proof.
  assert (K : forall w n m, n mod 2 ^ N.of_nat w = m mod 2 ^ N.of_nat w -> bits_be w n = bits_be w m).
  { induction w; intros n m E; cbn [bits_be]; auto.
    rewrite Nat2N.inj_succ in E. f_equal.
    - rewrite <- (N.mod_pow2_bits_low n (N.succ (N.of_nat w))) by lia.
      rewrite E. now rewrite N.mod_pow2_bits_low by lia.
    - apply IHw. rewrite N.pow_succ_r', (N.mul_comm 2) in E.
      rewrite !N.mod_mul_r in E by (try apply N.pow_nonzero; lia).
      apply (f_equal (fun x => x mod 2 ^ N.of_nat w)) in E.
      rewrite !(N.mul_comm (2 ^ _)), !N.mod_add in E by (apply N.pow_nonzero; lia).
      now rewrite !N.mod_mod in E by (apply N.pow_nonzero; lia). }
  induction l; cbn [length bits_be val_be]; auto. f_equal.
  - rewrite N.add_comm. rewrite <- (N.add_0_l (N.of_nat (length l))) at 2.
    rewrite <- N.div_pow2_bits. rewrite N.div_add by (apply N.pow_nonzero; lia).
    rewrite N.div_small by apply val_be_bound. now destruct a.
  - transitivity (bits_be (length l) (val_be l)); [|exact IHl]. apply K. rewrite N.add_comm, N.mod_add; auto. apply N.pow_nonzero; lia.
Qed.

