(** Proofs for C66. *)
From Verif Require Import Common Range_Model Range_Spec.
Local Open Scope Z_scope.

Lemma bits_pos t : 8 <= bits t <= 64.
Proof. unfold bits. destruct (size t); lia. Qed.
Lemma pow_bits t : 2 ^ bits t = 2 * 2 ^ (bits t - 1) /\ 0 < 2 ^ (bits t - 1).
Proof.
  pose proof (bits_pos t). split.
  - rewrite <- Z.pow_succ_r by lia. f_equal. lia.
  - apply Z.pow_pos_nonneg; lia.
Qed.
Lemma hi_lo t : hi t = lo t + 2 ^ bits t - 1 /\ 0 < 2 ^ bits t.
Proof. pose proof (pow_bits t). unfold hi, lo. destruct (is_signed t); lia. Qed.

Lemma convert_id t z : fits t z -> convert t z = z.
Proof. intros F. unfold convert, fits in *. pose proof (hi_lo t). rewrite Z.mod_small; lia. Qed.
Lemma convert_fits t z : fits t (convert t z).
Proof. unfold convert, fits. pose proof (hi_lo t). pose proof (Z.mod_pos_bound (z - lo t) (2 ^ bits t)). lia. Qed.
Lemma convert_congr t x y : (exists q, x = y + q * 2 ^ bits t) -> convert t x = convert t y.
Proof.
  intros (q & ->). unfold convert. pose proof (hi_lo t).
  replace (y + q * 2 ^ bits t - lo t) with (y - lo t + q * 2 ^ bits t) by lia. now rewrite Z_mod_plus_full.
Qed.
Lemma convert_shift t x : exists q, convert t x = x + q * 2 ^ bits t.
Proof.
  unfold convert. pose proof (hi_lo t).
  exists (- ((x - lo t) / 2 ^ bits t)). pose proof (Z.div_mod (x - lo t) (2 ^ bits t)). lia.
Qed.

(** Ranges of the types, by cases *)
Ltac ty_cases t := destruct t as [[|] []].
Ltac powers := unfold fits in *;
  repeat match goal with
  | |- context [lo ?e] => let v := eval vm_compute in (lo e) in change (lo e) with v in *
  | |- context [hi ?e] => let v := eval vm_compute in (hi e) in change (hi e) with v in *
  end.
Lemma promote_fits t z : fits t z -> fits (promote t) z.
Proof. ty_cases t; powers; lia. Qed.
Lemma common_left t u z : is_signed (common t u) = true -> fits t z -> fits (common t u) z.
Proof. ty_cases t; ty_cases u; powers; intros; try discriminate; lia. Qed.
Lemma common_right t u z : is_signed (common t u) = true -> fits u z -> fits (common t u) z.
Proof. ty_cases t; ty_cases u; powers; intros; try discriminate; lia. Qed.
Lemma common_wide t u : exists q, 2 ^ bits (common t u) = q * 2 ^ bits t.
Proof.
  ty_cases t; ty_cases u; unfold common, promote, bits; cbn;
    first [exists 1; reflexivity|exists (2 ^ 8); reflexivity|exists (2 ^ 16); reflexivity|exists (2 ^ 24); reflexivity
          |exists (2 ^ 32); reflexivity|exists (2 ^ 48); reflexivity|exists (2 ^ 56); reflexivity].
Qed.
Lemma common_self t z : fits t z -> fits (common t t) z.
Proof. ty_cases t; powers; lia. Qed.
Lemma promote_wide t : exists q, 2 ^ bits (promote t) = q * 2 ^ bits t.
Proof.
  ty_cases t; unfold promote, bits; cbn; first [exists 1; reflexivity|exists (2 ^ 16); reflexivity|exists (2 ^ 24); reflexivity].
Qed.
Lemma neg_fits t v : 0 < v -> fits t v -> is_signed (promote t) = true -> fits (promote t) (- v).
Proof. ty_cases t; powers; intros; try discriminate; lia. Qed.

Lemma add_convert ti c x y :
  (exists q, 2 ^ bits c = q * 2 ^ bits ti) -> fits ti (x + y) ->
  convert ti (convert c (convert c x + convert c y)) = x + y.
Proof.
  intros (q & Q) F. transitivity (convert ti (x + y)); [|now apply convert_id].
  destruct (convert_shift c x) as [a ->]. destruct (convert_shift c y) as [b ->].
  destruct (convert_shift c (x + a * 2 ^ bits c + (y + b * 2 ^ bits c))) as [d ->].
  apply convert_congr. exists ((a + b + d) * q). rewrite Q. ring.
Qed.

(** One step of the loop goes to the next number when that number is of the variable's type. *)
Lemma advance_ok st ti i : step_ok st -> fits ti i -> fits ti (i + step_value st) ->
  advance st ti i = Ok (i + step_value st).
Proof.
  intros SO Fi Fn. destruct st as [s|]; cbn [advance step_value] in *.
  - destruct SO as (Pos & Fs & Sg).
    set (k := if dash s then - sval s else sval s) in *.
    set (tk := if dash s then promote (stype s) else stype s).
    assert ((if dash s then arith (promote (stype s)) (- sval s) else Ok (sval s)) = Ok k) as ->.
    { unfold k. destruct (dash s); [|reflexivity]. unfold arith. rewrite (Sg eq_refl).
      pose proof (neg_fits _ _ Pos Fs (Sg eq_refl)) as [L H].
      apply Z.leb_le in L. apply Z.leb_le in H. now rewrite L, H. }
    assert (fits tk k) as Fk.
    { unfold tk, k. destruct (dash s); [|exact Fs]. exact (neg_fits _ _ Pos Fs (Sg eq_refl)). }
    cbn [bind]. set (c := common ti tk). unfold arith.
    destruct (is_signed c) eqn:E.
    + pose proof (common_left ti tk i E Fi) as Ci. pose proof (common_right ti tk k E Fk) as Ck.
      pose proof (common_left ti tk _ E Fn) as Cn. fold c in Ci, Ck, Cn.
      rewrite (convert_id c i Ci), (convert_id c k Ck). destruct Cn as [L H].
      apply Z.leb_le in L. apply Z.leb_le in H. rewrite L, H. cbn. f_equal. now apply convert_id.
    + cbn. f_equal. apply add_convert; [apply common_wide|exact Fn].
  - unfold arith. destruct (is_signed (promote ti)) eqn:E.
    + pose proof (promote_fits _ _ Fn) as [L H]. apply Z.leb_le in L. apply Z.leb_le in H. rewrite L, H. cbn.
      f_equal. now apply convert_id.
    + cbn. f_equal. destruct (convert_shift (promote ti) (i + 1)) as [d ->].
      transitivity (convert ti (i + 1)); [|now apply convert_id]. apply convert_congr. destruct (promote_wide ti) as [q ->].
      exists (d * q). ring.
Qed.

Lemma down_sign st : step_ok st -> (down st = true /\ step_value st < 0) \/ (down st = false /\ 0 < step_value st).
Proof. destruct st as [s|]; cbn; [|lia]. intros (P & _ & _). destruct (dash s); [left|right]; split; auto; lia. Qed.

Lemma test_ok st incl ti te i b : step_ok st -> fits (common ti te) i -> fits (common ti te) b ->
  test st incl ti te i b = true <-> inside incl (step_value st) b i.
Proof.
  intros SO Fi Fb. unfold test. rewrite (convert_id _ i Fi), (convert_id _ b Fb). unfold inside.
  destruct (down_sign st SO) as [[-> S]|[-> S]].
  - replace (0 <? step_value st) with false by lia. destruct incl; lia.
  - replace (0 <? step_value st) with true by lia. destruct incl; lia.
Qed.

Lemma range_cons incl a b k x ls : range incl a b k (x :: ls) -> x = a /\ inside incl k b a /\ range incl (a + k) b k ls.
Proof.
  intros R. destruct (proj1 (R 0%nat x) eq_refl) as [E I]. cbn in E. rewrite Z.add_0_r in E. subst x. splits; auto.
  intros n x. specialize (R (S n) x). cbn in R. rewrite R. replace (a + k + Z.of_nat n * k) with (a + Z.of_nat (S n) * k) by lia. reflexivity.
Qed.
Lemma range_nil incl a b k : range incl a b k [] -> ~ inside incl k b a.
Proof. intros R I. assert (nth_error (@nil Z) 0 = Some a) as H; [|discriminate]. apply R. cbn. split; [lia|exact I]. Qed.

Lemma between t x y z : fits t x -> fits t z -> (x <= y <= z \/ z <= y <= x) -> fits t y.
Proof. unfold fits. lia. Qed.

Lemma loop_ok S (body : Z -> S -> res (ctl S)) (stop : S -> Z) st incl ti te b :
  step_ok st -> fits (common ti te) b ->
  (forall i s s', stop s = b -> body i s = Ok (Next s') -> stop s' = b) ->
  forall ls a s fuel, range incl a b (step_value st) ls -> stop s = b ->
  fits ti a -> fits ti (a + Z.of_nat (length ls) * step_value st) ->
  fits (common ti te) a -> fits (common ti te) (a + Z.of_nat (length ls) * step_value st) ->
  (length ls < fuel)%nat ->
  for_loop body stop fuel st incl ti te a s = for_each body ls s.
Proof.
  intros SO Fb Keep. induction ls as [|x ls IH]; intros a s fuel R E Fa Fl Ca Cl L; destruct fuel as [|fuel]; cbn [length] in *; try lia.
  - cbn [for_loop for_each]. rewrite E.
    destruct (test st incl ti te a b) eqn:T; [|reflexivity].
    apply test_ok in T; auto. now apply range_nil in R.
  - destruct (range_cons _ _ _ _ _ _ R) as (-> & I & R'). cbn [for_loop for_each]. rewrite E.
    rewrite (proj2 (test_ok st incl ti te a b SO Ca Fb) I).
    destruct (body a s) as [[s'|s']| | |] eqn:B; cbn [bind]; try reflexivity.
    assert (a + Z.of_nat (Datatypes.S (length ls)) * step_value st = a + step_value st + Z.of_nat (length ls) * step_value st) as X by lia.
    rewrite X in Fl, Cl.
    assert (a <= a + step_value st <= a + step_value st + Z.of_nat (length ls) * step_value st \/
            a + step_value st + Z.of_nat (length ls) * step_value st <= a + step_value st <= a) as Bt
      by (destruct (down_sign st SO); nia).
    rewrite (advance_ok st ti a SO Fa (between _ _ _ _ Fa Fl Bt)). cbn [bind].
    apply IH; auto; [eapply Keep; eauto|exact (between _ _ _ _ Fa Fl Bt)|exact (between _ _ _ _ Ca Cl Bt)|lia].
Qed.

(** The members of a range with step one *)
Lemma range_one incl a b ls : range incl a b 1 ls ->
  Z.of_nat (length ls) = Z.max 0 ((if incl then b + 1 else b) - a).
Proof.
  revert a. induction ls as [|x ls IH]; intros a R.
  - apply range_nil in R. unfold inside in R. cbn in *. destruct incl; lia.
  - destruct (range_cons _ _ _ _ _ _ R) as (-> & I & R'). specialize (IH _ R'). unfold inside in I. cbn [length] in *.
    destruct incl; cbn in I; lia.
Qed.
Fixpoint count_up (a : Z) (n : nat) : list Z := match n with O => [] | S n => a :: count_up (a + 1) n end.
Lemma count_up_nth n : forall a i x, nth_error (count_up a n) i = Some x <-> x = a + Z.of_nat i /\ (i < n)%nat.
Proof.
  induction n as [|n IH]; intros a [|i] x; cbn [count_up nth_error].
  - split; [discriminate|lia].
  - split; [discriminate|lia].
  - split; [intros [= <-]; lia|]. intros [-> _]. f_equal. lia.
  - rewrite IH. lia.
Qed.
Lemma range_exists incl a b : exists ls, range incl a b 1 ls.
Proof.
  exists (count_up a (Z.to_nat ((if incl then b + 1 else b) - a))). intros n x. rewrite count_up_nth. unfold inside. cbn.
  destruct incl; lia.
Qed.

(** A loop whose body always goes on, before its end *)
Lemma loop_skip S (f : S -> S) (stop : S -> Z) incl ti te n : forall i s fuel,
  (forall j t, i <= j < i + Z.of_nat n -> test None incl ti te j (stop t) = true) ->
  fits ti i -> fits ti (i + Z.of_nat n) ->
  exists s', for_loop (fun _ s => Ok (Next (f s))) stop (n + fuel) None incl ti te i s =
             for_loop (fun _ s => Ok (Next (f s))) stop fuel None incl ti te (i + Z.of_nat n) s'.
Proof.
  induction n as [|n IH]; intros i s fuel T Fi Fn.
  - exists s. cbn [Nat.add]. f_equal. lia.
  - cbn [Nat.add for_loop]. rewrite T by lia. cbn [bind].
    assert (fits ti (i + 1)) as F1 by (unfold fits in *; lia).
    rewrite (advance_ok None ti i I Fi F1). cbn [bind step_value].
    destruct (IH (i + 1) (f s) fuel) as [s' E]; [intros; apply T; lia|exact F1|unfold fits in *; lia|].
    exists s'. rewrite E. f_equal. lia.
Qed.
