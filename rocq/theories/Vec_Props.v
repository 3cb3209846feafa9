(** Properties C01, C02, C03: Vec. *)
From Verif Require Import Common Vec_Model Vec_Spec Vec_Sys Vec_Proofs.

(** The vector [v] holds exactly the items of [l]: its first [len] slots are
    initialised with them, and [cap] is the number of slots allocated. *)
Definition holds {A} (v : vec A) (l : list A) : Prop :=
  firstn (len v) (data v) = map Some l /\ len v <= cap v /\ cap v = length (data v).

Lemma holds_vrep {A} (v : vec A) l : holds v l <-> vrep v l.
Proof.
  split.
  - intros (F & L & C). exists (skipn (len v) (data v)). rewrite <- F, firstn_skipn.
    repeat split; auto.
    assert (length (firstn (len v) (data v)) = length (map (@Some A) l)) by congruence.
    rewrite firstn_length, map_length in H. lia.
  - intros R. split; [|split].
    + now apply vrep_contents.
    + destruct R as (tl & E & L & C). rewrite C, E, L, app_length, map_length. lia.
    + destruct R as (tl & E & L & C). auto.
Qed.

Lemma run_holds {A} (rep_eq : A -> A -> bool) ops :
  match spec_run rep_eq [] ops with
  | None => sys_run rep_eq [] ops = Panic
  | Some (ls, outs) =>
      exists st, sys_run rep_eq [] ops = Ok (st, outs) /\ Forall2 holds st ls
  end.
Proof.
  pose proof (sys_run_ok rep_eq ops [] [] (Forall2_nil _)) as H.
  destruct (spec_run rep_eq [] ops) as [[ls outs]|]; cbn in H; auto.
  destruct H as (st & E & R). exists st. split; auto.
  unfold srep in R. clear E. induction R; constructor; auto. now apply holds_vrep.
Qed.

(** C01.  Every program over vectors returns what the same program over
    mathematical lists returns, panics exactly when that one does, never has
    undefined behaviour and always terminates. *)
Theorem C01_vec_refines_lists :
  forall (A : Type) (rep_eq : A -> A -> bool) (ops : list (vop A)),
  match spec_run rep_eq [] ops with
  | None => sys_run rep_eq [] ops = Panic
  | Some (ls, outs) =>
      exists st, sys_run rep_eq [] ops = Ok (st, outs) /\ Forall2 holds st ls
  end.
Proof. exact @run_holds. Qed.
Print Assumptions C01_vec_refines_lists.

(** A history that grows twice, inserts in the middle, moves and clones. *)
Example C01_example :
  spec_run Nat.eqb []
    [VNew; VPush 0 1; VPush 0 2; VInsert 0 1 9; VNew; VPush 1 7; VAppend 0 1; VClone 0;
     VRemove 0 0; VGet 0 0; VIterate 2; VEq 2 0; VPopOpt 1; VLength 0]
  = Some ([[]; []; [1; 9; 2; 7]],
          [Unit; Unit; Unit; Unit; Unit; Unit; Unit; Unit; Val 1; Val 9;
           Items [1; 9; 2; 7]; Bool false; Opt None; Num 0]).
Proof. vm_compute. reflexivity. Qed.

(** C02 on non-empty vectors. *)
Theorem C02_reverse_partial :
  forall (A : Type) (v : vec A) (l : list A),
  holds v l -> l <> [] -> (N.of_nat (length l) < 2 ^ 64)%N ->
  exists v', vreverse v = Ok v' /\ holds v' (rev l).
Proof.
  intros A v l H Hl Hb. apply holds_vrep in H.
  destruct (vreverse_ok (fun _ _ => true) v l H Hl Hb) as (v' & E & R). exists v'; split; auto.
  now apply holds_vrep.
Qed.
Print Assumptions C02_reverse_partial.

(** C02 fails on every empty vector. *)
Theorem C02_reverse_empty_refuted :
  forall (A : Type) (v : vec A), holds v [] -> (N.of_nat (length (data v)) < 2 ^ 64)%N ->
  vreverse v = UB.
Proof.
  intros A v (F & L & C) B. unfold vreverse.
  assert (L0 : len v = 0).
  { assert (length (firstn (len v) (data v)) = 0) by now rewrite F. rewrite firstn_length in H. lia. }
  rewrite L0. cbn [vreverse_loop N.of_nat].
  change ((0 + (2 ^ 64 - 1)) mod 2 ^ 64)%N with (2 ^ 64 - 1)%N.
  change (0 <? 2 ^ 64 - 1)%N with true. cbn match. change (N.to_nat 0) with 0.
  destruct (bget (data v) 0) eqn:G; cbn; auto.
  - destruct (N.ltb_spec (2 ^ 64 - 1) (N.of_nat (length (data v)))); [lia|]. reflexivity.
  - unfold bget in G. destruct (nth_error (data v) 0) as [[]|]; discriminate.
  - unfold bget in G. destruct (nth_error (data v) 0) as [[]|]; discriminate.
Qed.
Print Assumptions C02_reverse_empty_refuted.

(** C03, by value and by reference, for every vector that holds [l]. *)
Theorem C03_iteration :
  forall (A : Type) (v : vec A) (l : list A), holds v l ->
  forall fuel, length l < fuel ->
  viter_collect fuel (viterator v) = Ok l /\ viter_ref_collect fuel (viterator v) = Ok l.
Proof.
  intros A v l H fuel Hf. apply holds_vrep in H. destruct H as (tl & E & L & C).
  unfold viterator. rewrite E, L. split.
  - erewrite viter_collect_ok with (k := length l); [reflexivity | exact (fun _ _ => true) | lia | lia].
  - erewrite viter_ref_collect_ok with (k := length l); [reflexivity | exact (fun _ _ => true) | lia | lia].
Qed.
Print Assumptions C03_iteration.

Example C02_C03_example :
  exists v, sys_run Nat.eqb [] [VNew; VPush 0 4; VPush 0 5; VPush 0 6] = Ok ([v], [Unit; Unit; Unit; Unit])
  /\ holds v [4; 5; 6] /\ cap v = 8
  /\ (exists v', vreverse v = Ok v' /\ holds v' [6; 5; 4]).
Proof.
  eexists. split; [vm_compute; reflexivity|]. repeat split; try (cbn; lia).
  eexists. split; [vm_compute; reflexivity|]. repeat split; cbn; lia.
Qed.

(** with_capacity multiplies without overflow check: it obtains the requested
    number of slots iff [cap * sizeof(T)] fits 64 bits. *)
Theorem C01_with_capacity_alloc :
  forall esize c : N, (0 < esize -> c * esize < 2 ^ 64 -> vwith_capacity_wrap esize c = (c, c))%N.
Proof.
  intros esize c He H. unfold vwith_capacity_wrap. rewrite N.mod_small by lia.
  now rewrite N.div_mul by lia.
Qed.
Print Assumptions C01_with_capacity_alloc.

Theorem C01_with_capacity_overflow_refuted :
  exists esize c : N,
    (0 < esize /\ c < 2 ^ 64 /\ fst (vwith_capacity_wrap esize c) < snd (vwith_capacity_wrap esize c))%N.
Proof. exists 8%N, (2 ^ 61 + 1)%N. vm_compute. auto. Qed.
Print Assumptions C01_with_capacity_overflow_refuted.
