(** C25: constant folding. *)
From Verif Require Import Common ConstFold_Model ConstFold_Spec.
Local Open Scope Z_scope.

Lemma wrap_small w v : 0 < w -> - 2 ^ (w - 1) <= v < 2 ^ (w - 1) -> wrap w v = v.
Proof.
  intros Hw H. unfold wrap. assert (E : 2 ^ w = 2 * 2 ^ (w - 1)).
  { rewrite <- Z.pow_succ_r by lia. f_equal. lia. }
  rewrite Z.mod_small; lia.
Qed.

Lemma result_ll t v r : t <> ULL -> result t v = Some r -> r = (t, v) /\ ll v = Ok (Some v).
Proof.
  intros N. unfold result, ll. destruct t; try easy; cbn [width];
    destruct (Z.leb_spec (- 2 ^ (32 - 1)) v), (Z.ltb_spec v (2 ^ (32 - 1)));
    destruct (Z.leb_spec (- 2 ^ (64 - 1)) v), (Z.ltb_spec v (2 ^ (64 - 1))); cbn [andb]; try easy;
    intros [= <-]; (split; [reflexivity|]);
    destruct (Z.leb_spec (- 2 ^ 63) v), (Z.ltb_spec v (2 ^ 63)); cbn [andb]; auto; lia.
Qed.

Lemma eval_agrees c e : signed_literals e -> forall t v, c_value (vars_of c) e = Some (t, v) ->
  t <> ULL /\ eval c e = Ok (Some v).
Proof.
  induction e as [v| |x|op l IHl r IHr|op e IH|]; intros S t w H; cbn [c_value eval] in *; try discriminate.
  - cbn in S. unfold literal in H. destruct (Z.leb_spec (2 ^ 63) (Z.of_N v)).
    { exfalso. apply N2Z.inj_lt in S. rewrite N2Z.inj_pow in S. change (Z.of_N 2 ^ Z.of_N 63) with (2 ^ 63) in S. lia. }
    assert (E : to_ll (Z.of_N v) = Z.of_N v) by (apply wrap_small; [lia|]; change (2 ^ (64 - 1)) with (2 ^ 63); lia).
    rewrite E. destruct (2 ^ 31 <=? Z.of_N v); injection H as <- <-; split; easy.
  - unfold vars_of in H. destruct (const_int_val c x) as [k|].
    + injection H as <- <-. easy.
    + destruct (tag_id c x); [injection H as <- <-; easy|discriminate].
  - destruct S as [Sl Sr]. destruct (binop_of op) as [o|] eqn:Eo; [|discriminate].
    destruct (c_value (vars_of c) l) as [[t1 a]|] eqn:El; [|discriminate].
    destruct (c_value (vars_of c) r) as [[t2 b]|] eqn:Er; [|discriminate].
    destruct (IHl Sl _ _ eq_refl) as [N1 ->]. destruct (IHr Sr _ _ eq_refl) as [N2 ->]. cbn [bind].
    assert (NJ : join t1 t2 <> ULL) by (destruct t1, t2; easy).
    assert (Cv : forall x, convert (join t1 t2) x = x) by (destruct t1, t2; easy).
    unfold c_bin in H. cbn [fst snd] in H. rewrite !Cv in H.
    unfold binop_of in Eo. unfold eval_bin.
    repeat match type of Eo with
           | (if ?x then _ else _) = _ =>
             destruct x; [injection Eo as <-|]
           end; try discriminate.
    + apply result_ll in H as [[= -> ->] ->]; auto.
    + apply result_ll in H as [[= -> ->] ->]; auto.
    + apply result_ll in H as [[= -> ->] ->]; auto.
    + destruct (b =? 0); [discriminate|]. apply result_ll in H as [[= -> ->] ->]; auto.
    + destruct (Z.eqb_spec b 0); [discriminate|].
      destruct (result (join t1 t2) (Z.quot a b)) as [q|] eqn:Eq; [|discriminate]. injection H as <- <-.
      split; auto. apply result_ll in Eq as [_ Eq]; auto.
      destruct (Z.eqb_spec a (- 2 ^ 63)) as [->|]; auto. destruct (Z.eqb_spec b (-1)) as [->|]; auto. discriminate Eq.
    + destruct (Z.leb_spec 0 b), (Z.ltb_spec b (width t1)), (Z.leb_spec 0 a); cbn [andb] in H; try discriminate.
      apply result_ll in H as [[= -> ->] ->]; auto. split; auto.
      assert (b < 64) by (destruct t1; cbn in *; lia). destruct (Z.ltb_spec b 64); [reflexivity|lia].
    + destruct (Z.leb_spec 0 b), (Z.ltb_spec b (width t1)); cbn [andb] in H; try discriminate.
      injection H as <- <-. split; auto.
      assert (b < 64) by (destruct t1; cbn in *; lia). destruct (Z.ltb_spec b 64); [|lia]. cbn [andb].
      now rewrite Z.shiftr_div_pow2.
    + injection H as <- <-. auto.
    + injection H as <- <-. auto.
    + injection H as <- <-. auto.
  - destruct (c_value (vars_of c) e) as [[t1 a]|] eqn:Ee; [|discriminate].
    destruct (IH S _ _ eq_refl) as [N1 ->]. cbn [bind]. unfold c_un in H. cbn [fst snd] in H. unfold eval_un.
    destruct (beq_bytes op (bs "-")). { apply result_ll in H as [[= -> ->] ->]; auto. }
    destruct (beq_bytes op (bs "+")). { now injection H as <- <-. }
    destruct (beq_bytes op (bs "~")); [|discriminate].
    assert (L : Z.lnot a = - a - 1) by (unfold Z.lnot; lia). rewrite L.
    destruct t1; [| |now destruct N1]; cbv iota in H; inversion H; subst; split; (discriminate || reflexivity).
Qed.

(** Wherever the C expression has a value, the evaluator returns that value, for
    expressions without literals from 2^63 on; in particular it has no undefined
    behaviour there. *)
Theorem C25_fold_partial :
  forall c e t v, signed_literals e -> c_value (vars_of c) e = Some (t, v) -> eval c e = Ok (Some v).
Proof. intros c e t v S H. now destruct (eval_agrees c e S t v H). Qed.
Print Assumptions C25_fold_partial.

(** The array size used is that value if it fits an int. *)
Theorem C25_array_size_partial :
  forall c e t v, signed_literals e -> c_value (vars_of c) e = Some (t, v) ->
  - 2 ^ 31 <= v < 2 ^ 31 -> array_size c e = Ok (Some v).
Proof.
  intros c e t v S H B. unfold array_size. rewrite (C25_fold_partial _ _ _ _ S H). cbn [bind option_map].
  unfold to_int. rewrite wrap_small; auto; lia.
Qed.
Print Assumptions C25_array_size_partial.

(** A use of def x = e stands for the value of e if that is from 0 to 2^31-1. *)
Theorem C25_def_partial :
  forall c x e t v, signed_literals e -> c_value (vars_of c) e = Some (t, v) -> 0 <= v < 2 ^ 31 ->
  exists c' u, def_const c x e = Ok c' /\ use_of_def c' x = Some u /\
    c_value (vars_of c') u = Some (Int, v).
Proof.
  intros c x e t v S H B. unfold def_const. rewrite (C25_fold_partial _ _ _ _ S H). cbn [bind].
  do 2 eexists. split; [reflexivity|]. unfold use_of_def. cbn [const_int_val]. rewrite beq_bytes_refl.
  cbn [option_map]. split; [reflexivity|]. cbn [c_value].
  assert (E : to_int v = v) by (apply wrap_small; [lia|]; change (2 ^ (32 - 1)) with (2 ^ 31); lia).
  rewrite E, Z.mod_small by lia. unfold literal. rewrite Z2N.id by lia.
  destruct (Z.leb_spec (2 ^ 63) v); [lia|]. destruct (Z.leb_spec (2 ^ 31) v); [lia|]. reflexivity.
Qed.
Print Assumptions C25_def_partial.

Definition empty : ctx := mkctx (fun _ => None) (fun _ => None).
Definition neg e := Un (bs "-") e.

(** The compiler itself overflows, or divides LLONG_MIN by -1 (a trap), or shifts too far. *)
Theorem C25_crash_refuted :
  eval empty (Bin (bs "+") (Lit (2 ^ 63 - 1)) (Lit 1)) = UB /\
  eval empty (Bin (bs "/") (Bin (bs "-") (neg (Lit (2 ^ 63 - 1))) (Lit 1)) (neg (Lit 1))) = UB /\
  eval empty (Bin (bs "%") (Bin (bs "-") (neg (Lit (2 ^ 63 - 1))) (Lit 1)) (neg (Lit 1))) = UB /\
  eval empty (Bin (bs "<<") (Lit 1) (Lit 64)) = UB.
Proof. splits; vm_compute; reflexivity. Qed.
Print Assumptions C25_crash_refuted.

(** The evaluator succeeds where the C expression is undefined (int overflow). *)
Theorem C25_int_refuted :
  eval empty (Bin (bs "+") (Lit (2 ^ 31 - 1)) (Lit 1)) = Ok (Some (2 ^ 31)) /\
  c_value (vars_of empty) (Bin (bs "+") (Lit (2 ^ 31 - 1)) (Lit 1)) = None.
Proof. split; vm_compute; reflexivity. Qed.
Print Assumptions C25_int_refuted.

(** With a literal of 2^63 or more the values differ: (2^64-1)/2. *)
Theorem C25_unsigned_refuted :
  eval empty (Bin (bs "/") (Lit (2 ^ 64 - 1)) (Lit 2)) = Ok (Some 0) /\
  c_value (vars_of empty) (Bin (bs "/") (Lit (2 ^ 64 - 1)) (Lit 2)) = Some (ULL, 2 ^ 63 - 1).
Proof. split; vm_compute; reflexivity. Qed.
Print Assumptions C25_unsigned_refuted.

(** def x = -k: a use of x is emitted as the unsigned literal 2^64-k, which is not
    negative; def x = v for v from 2^31 on is truncated. *)
Theorem C25_def_negative_refuted :
  forall x k, 0 < k <= 2 ^ 31 ->
  exists c u, def_const empty x (neg (Lit (Z.to_N k))) = Ok c /\ use_of_def c x = Some u /\
    c_value (vars_of c) u = Some (ULL, 2 ^ 64 - k).
Proof.
  intros x k B. unfold def_const, neg. cbn [eval]. rewrite Z2N.id by lia.
  assert (E : to_ll k = k) by (apply wrap_small; [lia|]; change (2 ^ (64 - 1)) with (2 ^ 63); lia).
  rewrite E. cbn [bind eval_un]. unfold ll.
  destruct (Z.leb_spec (- 2 ^ 63) (- k)); [|lia]. destruct (Z.ltb_spec (- k) (2 ^ 63)); [|lia]. cbn [andb bind eval_un].
  unfold eval_un. cbn [beq_bytes bs]. rewrite N.eqb_refl. cbn [andb]. unfold ll.
  destruct (Z.leb_spec (- 2 ^ 63) (- k)); [|lia]. destruct (Z.ltb_spec (- k) (2 ^ 63)); [|lia]. cbn [andb bind].
  do 2 eexists. split; [reflexivity|]. unfold use_of_def. cbn [const_int_val]. rewrite beq_bytes_refl.
  cbn [option_map]. split; [reflexivity|]. cbn [c_value].
  assert (E2 : to_int (- k) = - k) by (apply wrap_small; [lia|]; change (2 ^ (32 - 1)) with (2 ^ 31); lia).
  rewrite E2. replace (- k) with ((2 ^ 64 - k) + (-1) * 2 ^ 64) by lia.
  rewrite Z.mod_add by lia. rewrite Z.mod_small by lia. unfold literal. rewrite Z2N.id by lia.
  destruct (Z.leb_spec (2 ^ 63) (2 ^ 64 - k)); [reflexivity|lia].
Qed.
Print Assumptions C25_def_negative_refuted.

Theorem C25_def_large_refuted :
  (exists c u, def_const empty (bs "X") (Lit 5000000000) = Ok c /\ use_of_def c (bs "X") = Some u /\
    c_value (vars_of c) u = Some (Int, 705032704)) /\
  array_size empty (Lit (2 ^ 32 + 1)) = Ok (Some 1).
Proof.
  split; [|vm_compute; reflexivity].
  set (c := mkctx (fun y => if beq_bytes y (bs "X") then Some 705032704 else None) (fun _ => None)).
  exists c, (Lit 705032704). splits; [|vm_compute; reflexivity|vm_compute; reflexivity].
  unfold def_const. cbn [eval].
  assert (E : to_ll (Z.of_N 5000000000) = 5000000000) by (vm_compute; reflexivity). rewrite E. cbn [bind].
  assert (E2 : to_int 5000000000 = 705032704) by (vm_compute; reflexivity). rewrite E2. reflexivity.
Qed.
Print Assumptions C25_def_large_refuted.

(** Straight-line code: let x = v; and x = w;.  Assignments do not touch the context. *)
Inductive stmt := SLet (x : bytes) (v : N) | SAssign (x : bytes) (v : N).
Definition compile (c : ctx) (s : stmt) : ctx :=
  match s with SLet x v => let_const c x (Lit v) | SAssign _ _ => c end.
Definition exec (env : bytes -> option Z) (s : stmt) : bytes -> option Z :=
  match s with SLet x v | SAssign x v => fun y => if beq_bytes y x then Some (Z.of_N v) else env y end.

(** let x = v; x = w; then [T; x]: the array gets v elements although x is w. *)
Theorem C25_variable_refuted :
  forall c env x v w, (v < 2 ^ 31)%N -> v <> w ->
  array_size (fold_left compile [SLet x v; SAssign x w] c) (Var x) = Ok (Some (Z.of_N v)) /\
  fold_left exec [SLet x v; SAssign x w] env x = Some (Z.of_N w).
Proof.
  intros c env x v w B _. cbn [fold_left compile exec]. rewrite beq_bytes_refl. split; auto.
  unfold array_size, let_const. cbn [eval const_int_val]. rewrite beq_bytes_refl. cbn [bind option_map].
  assert (E : to_int (Z.of_N v) = Z.of_N v).
  { apply wrap_small; [lia|]. change (2 ^ (32 - 1)) with (2 ^ 31). apply N2Z.inj_lt in B.
    rewrite N2Z.inj_pow in B. change (Z.of_N 2 ^ Z.of_N 31) with (2 ^ 31) in B. lia. }
  rewrite !E. reflexivity.
Qed.
Print Assumptions C25_variable_refuted.

Example C25_example :
  let c := mkctx (fun y => if beq_bytes y (bs "N") then Some 12 else None) (fun _ => None) in
  let e := Bin (bs "-") (Bin (bs "<<") (Lit 1) (Var (bs "N"))) (Bin (bs "%") (neg (Lit 7)) (Lit 4)) in
  signed_literals e /\ c_value (vars_of c) e = Some (Int, 4099) /\ array_size c e = Ok (Some 4099).
Proof.
  cbv zeta. split; [|split].
  - cbn [signed_literals neg]. splits; auto; reflexivity.
  - vm_compute. reflexivity.
  - vm_compute. reflexivity.
Qed.
