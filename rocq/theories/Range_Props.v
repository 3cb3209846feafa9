(** C66: range loops visit exactly the range. *)
From Verif Require Import Common Range_Model Range_Spec Range_Proofs.
Local Open Scope Z_scope.

(** A loop over a range whose bounds the body does not change runs the body for exactly the
    members of the range, in order, whatever the types and the step, when the first number
    beyond the range still fits the type of the variable and bounds and variable keep their
    values in the type C compares them in.  Missing: the ranges refuted below. *)
Theorem C66_range_partial : forall S (body : Z -> S -> res (ctl S)) (stop : S -> Z) st incl ti te a b ls s,
  step_ok st -> range incl a b (step_value st) ls ->
  stop s = b -> (forall i s s', stop s = b -> body i s = Ok (Next s') -> stop s' = b) ->
  let beyond := a + Z.of_nat (length ls) * step_value st in
  fits ti a -> fits ti beyond ->
  fits (common ti te) a -> fits (common ti te) beyond -> fits (common ti te) b ->
  forall fuel, (length ls < fuel)%nat -> for_loop body stop fuel st incl ti te a s = for_each body ls s.
Proof. intros. eapply loop_ok; eauto. Qed.

(** In particular a..b and a..=b over one type, for every a and b of that type; the inclusive
    range must end before the type does. *)
Theorem C66_same_type : forall S (body : Z -> S -> res (ctl S)) (stop : S -> Z) incl t a b s,
  fits t a -> fits t b -> (incl = true -> b < hi t) ->
  stop s = b -> (forall i s s', stop s = b -> body i s = Ok (Next s') -> stop s' = b) ->
  exists ls, range incl a b 1 ls /\
    forall fuel, (length ls < fuel)%nat -> for_loop body stop fuel None incl t t a s = for_each body ls s.
Proof.
  intros S body stop incl t a b s Fa Fb Mx E K. destruct (range_exists incl a b) as [ls R]. exists ls. split; [exact R|].
  pose proof (range_one _ _ _ _ R) as L. intros fuel F.
  assert (fits t (a + Z.of_nat (length ls) * 1)) as Fe.
  { rewrite Z.mul_1_r, L. unfold fits in *. destruct incl; [specialize (Mx eq_refl)|]; lia. }
  apply (loop_ok S body stop None incl t t b I); auto using common_self.
Qed.

(** [repeat n] runs its body n times, for every n up to the largest int. *)
Theorem C66_repeat : forall S (f : S -> S) (stop : S -> Z) te n s,
  fits te n -> fits c_int n -> (n < 0 -> is_signed (common c_int te) = true) ->
  (forall s, stop s = n) ->
  forall fuel, (Z.to_nat n < fuel)%nat ->
  repeat_loop (fun _ s => Ok (Next (f s))) stop fuel te s = Ok (Nat.iter (Z.to_nat n) f s).
Proof.
  intros S f stop te n s Ft Fi Ng E fuel L. unfold repeat_loop.
  destruct (range_exists false 0 n) as [ls R]. pose proof (range_one _ _ _ _ R) as Ln. rewrite Z.sub_0_r in Ln.
  assert (length ls = Z.to_nat n) as Ln' by lia.
  assert (forall z, 0 <= z -> fits c_int z -> fits (common c_int te) z) as Up.
  { intros z. ty_cases te; powers; lia. }
  assert (fits (common c_int te) n) as Fc.
  { destruct (Z.lt_ge_cases n 0) as [N|N]; [apply common_left; auto|auto]. }
  rewrite (loop_ok S (fun _ s => Ok (Next (f s))) stop None false c_int te n I Fc) with (ls := ls); auto.
  - rewrite <- Ln'. generalize ls, s. clear. induction ls as [|x ls IH]; intros s; [reflexivity|].
    cbn [for_each bind length]. rewrite IH. f_equal. clear. induction (length ls) as [|n IH]; [reflexivity|]. exact (f_equal f IH).
  - cbn. unfold fits, lo, hi, c_int, bits; cbn. lia.
  - cbn [step_value]. rewrite Z.mul_1_r, Ln. unfold fits in *. unfold lo, hi, c_int, bits in *. cbn in *. lia.
  - apply Up; [lia|]. unfold fits, lo, hi, c_int, bits; cbn. lia.
  - cbn [step_value]. apply Up; [lia|]. rewrite Z.mul_1_r, Ln. unfold fits in *. unfold lo, hi, c_int, bits in *. cbn in *. lia.
  - rewrite Ln'. exact L.
Qed.

Definition noop : Z -> unit -> res (ctl unit) := fun _ s => Ok (Next s).
(** An inclusive range up to the largest value of its type: over int, i64 or isize the loop
    overflows; over any other type it never ends. *)
Theorem C66_inclusive_refuted : forall t a, fits t a ->
  (is_signed (promote t) = true /\ promote t = t ->
     exists fuel, for_loop noop (fun _ => hi t) fuel None true t t a tt = UB) /\
  (is_signed (promote t) = false \/ promote t <> t ->
     forall fuel, for_loop noop (fun _ => hi t) fuel None true t t a tt = Fuel).
Proof.
  intros t a Fa.
  assert (forall j, fits t j -> test None true t t j (hi t) = true) as T.
  { intros j F. apply test_ok; [exact I|now apply common_self| |unfold inside; cbn; unfold fits in F; lia].
    apply common_self. unfold fits in *; lia. }
  assert (fits t (hi t)) as Fh by (unfold fits in *; lia).
  split.
  - intros [Sg P]. exists (Z.to_nat (hi t - a) + 1)%nat.
    destruct (loop_skip unit (fun s => s) (fun _ => hi t) true t t (Z.to_nat (hi t - a)) a tt 1%nat) as [s' E].
    + intros j [] J. apply T. unfold fits in *. lia.
    + exact Fa.
    + unfold fits in *. lia.
    + unfold noop. rewrite E. replace (a + Z.of_nat (Z.to_nat (hi t - a))) with (hi t) by (unfold fits in *; lia).
      cbn [for_loop]. rewrite (T _ Fh). cbn [bind advance]. rewrite P in *. unfold arith. rewrite Sg.
      replace (hi t + 1 <=? hi t) with false by lia. rewrite andb_false_r. reflexivity.
  - intros Nar fuel. revert a Fa. induction fuel as [|fuel IH]; intros a Fa; [reflexivity|].
    cbn [for_loop]. rewrite (T _ Fa). unfold noop at 1. cbn [bind].
    assert (exists a', advance None t a = Ok a' /\ fits t a') as (a' & -> & Fa'); [|cbn [bind]; now apply IH].
    unfold advance, arith. destruct (is_signed (promote t)) eqn:Sg.
    + destruct Nar as [|Nar]; [discriminate|].
      assert (fits (promote t) (a + 1)) as [L H].
      { clear -Fa Nar. revert Fa. ty_cases t; try (now elim Nar); powers; lia. }
      apply Z.leb_le in L. apply Z.leb_le in H. rewrite L, H. cbn [bind]. eexists. split; [reflexivity|]. apply convert_fits.
    + cbn [bind]. eexists. split; [reflexivity|]. apply convert_fits.
Qed.

(** The variable has the type of the start: with an int start and an end beyond the largest int,
    the loop overflows; and a negative start with an unsigned end of the same or greater size
    visits nothing. *)
Theorem C66_mixed_types_refuted :
  (forall a b, fits c_int a -> hi c_int < b <= hi (mkty true W64) ->
     exists fuel, for_loop noop (fun _ => b) fuel None false c_int (mkty true W64) a tt = UB) /\
  (forall S (body : Z -> S -> res (ctl S)) a b s, lo c_int <= a < 0 -> 0 <= b <= hi c_int ->
     for_loop body (fun _ => b) 1 None false c_int (mkty false W64) a s = Ok s /\
     exists ls, range false a b 1 (a :: ls)).
Proof.
  split.
  - intros a b Fa Fb. exists (Z.to_nat (hi c_int - a) + 1)%nat.
    assert (forall j, fits c_int j -> test None false c_int (mkty true W64) j b = true) as T.
    { intros j F. apply test_ok; [exact I|now apply common_left|apply common_right; [reflexivity|]|].
      - unfold fits. unfold lo, hi, bits in *. cbn in *. lia.
      - unfold inside. cbn. unfold fits in F. lia. }
    destruct (loop_skip unit (fun s => s) (fun _ => b) false c_int (mkty true W64) (Z.to_nat (hi c_int - a)) a tt 1%nat) as [s' E].
    + intros j [] J. apply T. unfold fits in *. lia.
    + exact Fa.
    + unfold fits in *. lia.
    + unfold noop. rewrite E. replace (a + Z.of_nat (Z.to_nat (hi c_int - a))) with (hi c_int) by (unfold fits in *; lia).
      cbn [for_loop]. rewrite T by (unfold fits, lo, hi, c_int, bits; cbn; lia). reflexivity.
  - intros S body a b s A B. unfold lo, hi, c_int, bits in A, B. cbn in A, B. split.
    + cbn [for_loop]. unfold test. change (common c_int (mkty false W64)) with (mkty false W64). cbn [down].
      rewrite (convert_id _ b) by (unfold fits, lo, hi, bits; cbn; lia).
      rewrite (convert_congr (mkty false W64) a (a + 2 ^ 64)) by (exists (-1); cbn; lia).
      rewrite convert_id by (unfold fits, lo, hi, bits; cbn; lia).
      replace (a + 2 ^ 64 <? b) with false by lia. reflexivity.
    + destruct (range_exists false a b) as [[|x ls] R].
      * apply range_nil in R. elim R. unfold inside. cbn. lia.
      * destruct (range_cons _ _ _ _ _ _ R) as (-> & _ & _). exists ls. exact R.
Qed.

(** The direction is taken from the text of the step: a step held in a variable counts up,
    so that a negative one visits nothing of a range that goes down; and a range going down to
    0 over an unsigned type never ends. *)
Theorem C66_step_refuted :
  (forall S (body : Z -> S -> res (ctl S)) a b k s, fits c_int a -> fits c_int b -> k < 0 -> b < a ->
     for_loop body (fun _ => b) 1 (Some (mkstep false c_int k)) false c_int c_int a s = Ok s /\ inside false k b a) /\
  (forall t te, is_signed t = false -> forall a fuel, fits t a ->
     for_loop noop (fun _ => 0) fuel (Some (mkstep true c_int 1)) true t te a tt = Fuel).
Proof.
  split.
  - intros S body a b k s Fa Fb K L. split; [|unfold inside; replace (0 <? k) with false by lia; exact L].
    cbn [for_loop]. unfold test. cbn [down dash]. rewrite !convert_id by now apply common_self.
    replace (a <? b) with false by lia. reflexivity.
  - intros t te Sg a fuel. revert a. induction fuel as [|fuel IH]; intros a Fa; [reflexivity|].
    cbn [for_loop]. unfold test at 1. cbn [down dash].
    assert (convert (common t te) 0 <= convert (common t te) a) as Le.
    { assert (fits (common t te) 0 /\ (is_signed (common t te) = true \/ lo (common t te) = 0)) as [F0 L0].
      { clear. ty_cases t; ty_cases te; powers; cbn; lia. }
      rewrite (convert_id _ 0 F0). destruct L0 as [L0|L0].
      - rewrite convert_id by now apply common_left. clear -Sg Fa. unfold fits, lo in Fa. rewrite Sg in Fa. lia.
      - pose proof (convert_fits (common t te) a) as F. unfold fits in F. lia. }
    apply Z.leb_le in Le. rewrite Le. unfold noop at 1. cbn [bind].
    assert (exists a', advance (Some (mkstep true c_int 1)) t a = Ok a' /\ fits t a') as (a' & -> & Fa'); [|cbn [bind]; now apply IH].
    cbn [advance dash sval stype]. change (promote c_int) with c_int.
    change (arith c_int (- (1))) with (Ok (-1)). cbn [bind]. unfold arith.
    destruct (is_signed (common t c_int)) eqn:E.
    + rewrite (convert_id _ (-1)) by (apply common_right; [exact E|]; unfold fits, lo, hi, c_int, bits; cbn; lia).
      rewrite (convert_id _ a) by now apply common_left.
      assert (fits (common t c_int) (a + -1)) as [L H].
      { clear -Sg E Fa. revert Fa. ty_cases t; try discriminate Sg; try discriminate E; powers; lia. }
      apply Z.leb_le in L. apply Z.leb_le in H. rewrite L, H. cbn [bind]. eexists. split; [reflexivity|]. apply convert_fits.
    + cbn [bind]. eexists. split; [reflexivity|]. apply convert_fits.
Qed.

(** The end is evaluated again before every turn: a loop over 0..v.length() whose body adds
    elements runs on. *)
Theorem C66_end_refuted :
  let body (i s : Z) := Ok (Next (if s <? 5 then s + 1 else s)) in
  range false 0 1 1 [0] /\
  for_each body [0] 1 = Ok 2 /\ for_loop body (fun s => s) 10 None false c_int c_int 0 1 = Ok 5.
Proof.
  cbv zeta. splits; [|vm_compute; reflexivity|vm_compute; reflexivity].
  intros [|[|n]] x; cbn; unfold inside; cbn; split; try discriminate; try lia.
  - intros [= <-]. lia.
  - intros [-> _]. reflexivity.
Qed.

(** 10..1 in steps of -3 over i64, collecting the values seen *)
Example C66_example :
  let body i s := Ok (Next (s ++ [i])) in
  let st := Some (mkstep true c_int 3) in let t := mkty true W64 in
  step_ok st /\ range false 10 1 (step_value st) [10; 7; 4] /\ fits t 10 /\ fits t (10 + 3 * step_value st) /\
  fits (common t c_int) 10 /\ fits (common t c_int) (10 + 3 * step_value st) /\ fits (common t c_int) 1 /\
  for_loop body (fun _ : list Z => 1) 4 st false t c_int 10 [] = Ok [10; 7; 4].
Proof.
  cbv zeta. splits; [| |powers; cbn; lia|powers; cbn; lia|powers; cbn; lia|powers; cbn; lia|powers; cbn; lia|vm_compute; reflexivity].
  - cbn [step_ok stype sval dash]. splits; [lia|powers; lia|reflexivity].
  - intros n x. unfold inside. cbn [step_value dash sval]. change (0 <? - (3)) with false. cbv iota.
    destruct n as [|[|[|n]]]; cbn [nth_error].
    + split; [intros [= <-]; lia|intros [-> _]; reflexivity].
    + split; [intros [= <-]; lia|intros [-> _]; reflexivity].
    + split; [intros [= <-]; lia|intros [-> _]; reflexivity].
    + split; [destruct n; discriminate|lia].
Qed.

Print Assumptions C66_range_partial.
Print Assumptions C66_same_type.
Print Assumptions C66_repeat.
Print Assumptions C66_inclusive_refuted.
Print Assumptions C66_mixed_types_refuted.
Print Assumptions C66_step_refuted.
Print Assumptions C66_end_refuted.
