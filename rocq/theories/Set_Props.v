(** Property C10: Set. *)
From Coq Require Import Permutation.
From Verif Require Import Common Hash_Model Set_Model Set_Spec Set_Sys Hash_Proofs Set_Proofs.

(** For every element type whose [==] is equality of values, every hash function and
    every history: each call returns, and returns what a finite set answers. *)
Theorem C10_set_refines :
  forall (T : Type) (eqb : T -> T -> bool) (hash : T -> N),
  (forall a b, eqb a b = true <-> a = b) ->
  forall ops : list (zop T),
  exists f0, forall f, f0 < f ->
  exists z, z_run eqb hash f set_new ops = Ok (z, snd (zspec_run eqb [] ops)).
Proof.
  intros T eqb hash H ops. exists ((0 + 8) * 2 ^ length ops + 10). intros f Hf.
  destruct (z_run_spec eqb hash H ops f set_new [] (zrep_new hash)) as [[E F]|(z & E & _)]; eauto.
  cbn [zcap set_new] in F. lia.
Qed.
Print Assumptions C10_set_refines.

Example C10_example :
  (forall a b, N.eqb a b = true <-> a = b) /\
  snd (zspec_run N.eqb [] [ZAdd 1; ZAdd 1; ZAdd 2; ZRemove 1; ZRemove 1; ZContains 2; ZLength; ZClear; ZIsEmpty])%N
  = [ZBool true; ZBool false; ZBool true; ZBool true; ZBool false; ZBool true; ZNum 1; ZUnit; ZBool true].
Proof. split; [exact N.eqb_eq|reflexivity]. Qed.

(** Walking over the slots with [val_at] shows each member exactly once. *)
Theorem C10_val_at :
  forall (T : Type) (eqb : T -> T -> bool) (hash : T -> N),
  (forall a b, eqb a b = true <-> a = b) ->
  forall (ops : list (zop T)) f z outs,
  z_run eqb hash f set_new ops = Ok (z, outs) ->
  exists l, shown z = Ok l /\ NoDup l /\ Permutation l (fst (zspec_run eqb [] ops)).
Proof.
  intros T eqb hash H ops f z outs E.
  destruct (z_run_spec eqb hash H ops f set_new [] (zrep_new hash)) as [[F _]|(z' & F & R)]; [congruence|].
  rewrite E in F. injection F as <- _. exists (keys z). splits.
  - eapply shown_spec; eauto.
  - apply (ti_nodup _ _ (zr_inv _ _ _ R)).
  - apply R.
Qed.
Print Assumptions C10_val_at.

Example C10_val_at_example :
  exists z outs, z_run N.eqb (fun x => x) 20 set_new [ZAdd 1; ZAdd 9; ZAdd 2; ZRemove 9]%N = Ok (z, outs)
                 /\ shown z = Ok [1; 2]%N.
Proof. do 2 eexists. split; vm_compute; reflexivity. Qed.

(** For [f64] the [==] of line 89 is not equality of the hashed bytes.  A value is its
    64 bits; [==] is that of IEEE 754. *)
Definition f64_nan (a : N) : bool := (2047 * 2 ^ 52 <? a mod 2 ^ 63)%N.
Definition f64_eqb (a b : N) : bool :=
  negb (f64_nan a) && negb (f64_nan b) &&
  ((a =? b)%N || ((a mod 2 ^ 63 =? 0)%N && (b mod 2 ^ 63 =? 0)%N)).
Fixpoint le_bytes (n : nat) (a : N) : bytes :=
  match n with 0 => [] | S n => (a mod 256)%N :: le_bytes n (a / 256)%N end.
Definition f64_hash (a : N) : N := fnv1a default_seed (le_bytes 8 a).
Definition minus_zero : N := (2 ^ 63)%N.
Definition nan : N := (2047 * 2 ^ 52 + 1)%N.

(** 0.0 == -0.0, but once the table has 256 slots a set with 0.0 does not contain
    -0.0 and stores it as a second member (with fewer slots both zeros share a home
    slot and the test happens to succeed).  A NaN can be added again and again and is
    never a member. *)
Definition hundred : list (zop N) := map (fun i => ZAdd (N.of_nat i)) (seq 0 100).
Theorem C10_f64_refuted :
  f64_eqb 0 minus_zero = true /\
  (exists z outs, z_run f64_eqb f64_hash 400 set_new hundred = Ok (z, outs) /\
     exists z', z_run f64_eqb f64_hash 400 z [ZContains 0%N; ZContains minus_zero; ZAdd minus_zero; ZLength]
                = Ok (z', [ZBool true; ZBool false; ZBool true; ZNum 101])) /\
  (exists z, z_run f64_eqb f64_hash 40 set_new [ZAdd nan; ZAdd nan; ZContains nan; ZRemove nan; ZLength]
             = Ok (z, [ZBool true; ZBool true; ZBool false; ZBool false; ZNum 2])).
Proof.
  split; [reflexivity|]. split.
  - do 2 eexists. split; [vm_compute; reflexivity|]. eexists. vm_compute. reflexivity.
  - eexists. vm_compute. reflexivity.
Qed.
Print Assumptions C10_f64_refuted.
