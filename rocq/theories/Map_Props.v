(** Properties C07, C08, C09, C49, C50: Map. *)
From Coq Require Import Permutation.
From Verif Require Import Common Hash_Model Map_Model Map_Spec Map_Sys Hash_Proofs Map_Proofs.

(** C07.  For every hash function and every history: each call that returns, returns
    what a finite map answers; nothing panics and nothing is undefined. The only other
    outcome is a loop that does not end ([Fuel], see C08). *)
Theorem C07_map_refines :
  forall (V : Type) (hash : bytes -> N) (ops : list (mop V)) (f : nat),
  m_run hash f map_new ops = Fuel \/
  exists m, m_run hash f map_new ops = Ok (m, snd (mspec_run [] ops)).
Proof.
  intros V hash ops f. destruct (m_run_spec hash f ops map_new [] (mrep_new hash)) as [?|(m & E & _)]; eauto.
Qed.
Print Assumptions C07_map_refines.

(** C08, for histories with at most two calls of [remove]: every call returns. *)
Theorem C08_map_terminates_partial :
  forall (V : Type) (hash : bytes -> N) (ops : list (mop V)),
  removes ops <= 2 ->
  exists f0, forall f, f0 < f ->
  exists m, m_run hash f map_new ops = Ok (m, snd (mspec_run [] ops)).
Proof.
  intros V hash ops H. exists ((0 + 8) * 2 ^ length ops + 10). intros f Hf.
  destruct (m_run_spec hash f ops map_new [] (mrep_new hash)) as [F|(m & E & _)]; eauto.
  exfalso. eapply (m_run_terminates hash ops f map_new [] 0); eauto using mrep_new.
Qed.
Print Assumptions C08_map_terminates_partial.

Example C08_example :
  removes [MPut (bs "a") 1; MPut (bs "b") 2; MRemove (bs "a"); MGet (bs "a"); MPut (bs "a") 3;
           MRemove (bs "b"); MGet (bs "a"); MLength] = 2
  /\ snd (mspec_run [] [MPut (bs "a") 1; MPut (bs "b") 2; MRemove (bs "a"); MGet (bs "a");
                        MPut (bs "a") 3; MRemove (bs "b"); MGet (bs "a"); MLength])
     = [MUnit; MUnit; MUnit; MVal None; MUnit; MUnit; MVal (Some 3); MNum 1].
Proof. split; reflexivity. Qed.

(** The bound is sharp: a history with three removals never returns.  Eight keys have
    been stored, two of them removed; removing an absent key then probes for ever. *)
Definition fnv := fnv1a default_seed.
Definition k (i : nat) : bytes := [N.of_nat i + 97]%N.
Definition fill_table : list (mop nat) :=
  map (fun i => MPut (k i) i) [0; 1; 2; 3; 4; 5] ++ [MRemove (k 0); MRemove (k 1)]
  ++ [MPut (k 6) 6; MPut (k 7) 7].

Lemma full_loops (V : Type) hash (m : hmap V) l key :
  mrep hash m l -> 0 < mcap m -> occs (mslots m) = mcap m -> ~ In key (map fst l) ->
  forall f, probe (put_dec key) (mslots m) (mcap m) f (home hash (mcap m) key) = Fuel.
Proof.
  intros R H0 HO HN f.
  assert (Hh := home_lt hash _ key H0).
  assert (C := mr_cap _ _ _ R). assert (T := mr_inv _ _ _ R).
  destruct (probe_spec (put_dec key) (mslots m) (mcap m) (home hash (mcap m) key) (eq_sym C) Hh (put_dec_ok hash key _ T) f)
    as [(i & b & Hi & (s & En & D) & B & E)|(B & E)].
  - exfalso. destruct b.
    + apply put_dec_true in D as (L & v & S). apply HN.
      eapply Permutation_in; [apply Permutation_map, (mr_perm _ _ _ R)|].
      apply in_keys. exists v. apply in_contents. eauto.
    + apply put_dec_false in D. rewrite (occs_full (mslots m)) in D; [discriminate| |eapply nth_error_In; eauto].
      rewrite HO. exact C.
  - apply E.
Qed.

Lemma full_remove_loops (V : Type) hash (m : hmap V) l key f :
  mrep hash m l -> 0 < mcap m -> occs (mslots m) = mcap m -> ~ In key (map fst l) ->
  map_remove hash f m key = Fuel.
Proof.
  intros R H0 HO HN. unfold map_remove. destruct (Nat.eqb_spec (mcap m) 0); [lia|].
  change (remove_dec key) with (put_dec (V := V) key).
  erewrite full_loops; eauto.
Qed.

Lemma full_put_loops (V : Type) hash (m : hmap V) l key v f :
  mrep hash m l -> 0 < mcap m -> occs (mslots m) = mcap m -> ~ In key (map fst l) ->
  4 * mlen m < 3 * mcap m ->
  map_put hash f m key v = Fuel.
Proof.
  intros R H0 HO HN HL. destruct f; [reflexivity|]. rewrite map_put_noresize by auto.
  unfold put_core. destruct (Nat.eqb_spec (mcap m) 0); [lia|].
  erewrite full_loops; eauto.
Qed.

Lemma m_run_app (V : Type) hash f ops1 ops2 (m : hmap V) :
  m_run hash f m (ops1 ++ ops2) =
  (do '(m, o1) <- m_run hash f m ops1; do '(m, o2) <- m_run hash f m ops2; Ok (m, o1 ++ o2)).
Proof.
  revert m. induction ops1 as [|op ops1 IH]; intros m; cbn [m_run app bind].
  - destruct (m_run hash f m ops2) as [[? ?]| | |]; reflexivity.
  - destruct (m_step hash f m op) as [[m1 o]| | |]; cbn [bind]; auto. rewrite IH.
    destruct (m_run hash f m1 ops1) as [[m2 o1]| | |]; cbn [bind]; auto.
    destruct (m_run hash f m2 ops2) as [[? ?]| | |]; cbn [bind]; auto.
Qed.

Definition result {A B} (r : res (A * B)) (d : A) : A := match r with Ok (a, _) => a | _ => d end.
Definition full_map : hmap nat := Eval vm_compute in result (m_run fnv 20 map_new fill_table) map_new.

Lemma fill_run f : m_run fnv f map_new fill_table = Fuel \/
  exists o, m_run fnv f map_new fill_table = Ok (full_map, o).
Proof.
  do 20 (destruct f as [|f]; [vm_compute; solve [left; reflexivity | right; eexists; reflexivity]|]).
  vm_compute. right. eexists. reflexivity.
Qed.

Theorem C08_map_remove_refuted :
  removes (fill_table ++ [MRemove (k 8)]) = 3 /\
  forall f, m_run fnv f map_new (fill_table ++ [MRemove (k 8)]) = Fuel.
Proof.
  split; [reflexivity|]. intros f. rewrite m_run_app.
  destruct (m_run_spec fnv f fill_table map_new [] (mrep_new fnv)) as [E|(m & E & R)]; rewrite E; [reflexivity|].
  destruct (fill_run f) as [F|[o F]]; [congruence|].
  assert (m = full_map) by congruence. subst m. cbn [bind m_run m_step].
  erewrite full_remove_loops; [reflexivity|exact R| | |]; try (vm_compute; reflexivity).
  - cbn. lia.
  - vm_compute. intros H. repeat destruct H as [H|H]; try discriminate. easy.
Qed.
Print Assumptions C08_map_remove_refuted.

(** Storing and removing one key eight times makes the ninth [put] loop for ever,
    although the map is empty. *)
Definition churn : list (mop nat) :=
  concat (repeat [MPut (k 0) 1; MRemove (k 0)] 8).
Definition churned : hmap nat := Eval vm_compute in result (m_run fnv 20 map_new churn) map_new.

Lemma churn_run f : m_run fnv f map_new churn = Fuel \/
  exists o, m_run fnv f map_new churn = Ok (churned, o).
Proof.
  do 20 (destruct f as [|f]; [vm_compute; solve [left; reflexivity | right; eexists; reflexivity]|]).
  vm_compute. right. eexists. reflexivity.
Qed.

Theorem C08_map_put_refuted :
  fst (mspec_run [] churn) = [] /\
  forall f, m_run fnv f map_new (churn ++ [MPut (k 0) 1]) = Fuel.
Proof.
  split; [reflexivity|]. intros f. rewrite m_run_app.
  destruct (m_run_spec fnv f churn map_new [] (mrep_new fnv)) as [E|(m & E & R)]; rewrite E; [reflexivity|].
  destruct (churn_run f) as [F|[o F]]; [congruence|].
  assert (m = churned) by congruence. subst m. cbn [bind m_run m_step].
  erewrite full_put_loops; [reflexivity|exact R| | | |]; try (vm_compute; reflexivity).
  - cbn. lia.
  - vm_compute. tauto.
  - cbn. lia.
Qed.
Print Assumptions C08_map_put_refuted.

(** C09.  Iterating over a map that has allocated yields each entry exactly once. *)
Theorem C09_iteration_partial :
  forall (V : Type) (hash : bytes -> N) (ops : list (mop V)) f m outs,
  m_run hash f map_new ops = Ok (m, outs) ->
  0 < mcap m ->
  exists l f0, (forall g, f0 < g -> iter_all g (map_iterator m) = Ok l) /\
               Permutation l (fst (mspec_run [] ops)) /\ NoDup (map fst l).
Proof.
  intros V hash ops f m outs E H0.
  destruct (m_run_spec hash f ops map_new [] (mrep_new hash)) as [F|(m' & F & R)]; [congruence|].
  rewrite E in F. injection F as <- _.
  exists (contents (mslots m)), (mcap m). splits.
  - intros g Hg. unfold map_iterator. rewrite (iter_all_spec hash m _ R H0) by lia. reflexivity.
  - apply R.
  - apply (ti_nodup _ _ (mr_inv _ _ _ R)).
Qed.
Print Assumptions C09_iteration_partial.

Example C09_example :
  exists m outs, m_run fnv 20 map_new [MPut (bs "a") 1; MPut (bs "b") 2; MRemove (bs "a")] = Ok (m, outs)
  /\ 0 < mcap m /\ iter_all 20 (map_iterator m) = Ok [(bs "b", 2)].
Proof. do 2 eexists. split; [vm_compute; reflexivity|]. split; [cbn; lia|vm_compute; reflexivity]. Qed.

(** Iterating over a map that never stored anything (or was freed) reads [vals[0]]
    through a null pointer. *)
Theorem C09_iteration_empty_refuted :
  forall (V : Type) f, iter_all (S (S f)) (map_iterator (@map_new V)) = UB.
Proof. reflexivity. Qed.
Print Assumptions C09_iteration_empty_refuted.

(** The slot queries agree with each other and only show stored keys. *)
Theorem C09_slots :
  forall (V : Type) (hash : bytes -> N) (ops : list (mop V)) f m outs i,
  m_run hash f map_new ops = Ok (m, outs) ->
  exists o, map_key_at m i = Ok o /\
    (forall key, o = Some key -> In key (map fst (fst (mspec_run [] ops)))) /\
    map_is_slot_occupied m i = Ok (match o with Some _ => true | None => false end).
Proof.
  intros V hash ops f m outs i E.
  destruct (m_run_spec hash f ops map_new [] (mrep_new hash)) as [F|(m' & F & R)]; [congruence|].
  rewrite E in F. injection F as <- _. eapply key_at_spec; eauto.
Qed.
Print Assumptions C09_slots.

(** C49.  Re-seeding the hash (Time::randomize_hash) while a map holds entries loses
    them: the value stored under a key is no longer found. *)
Theorem C49_reseed_refuted :
  exists (seed' : N) m outs,
    m_run fnv 20 map_new [MPut (bs "a") 1] = Ok (m, outs) /\
    map_get fnv 20 m (bs "a") = Ok (Some 1) /\
    map_get (fnv1a seed') 20 m (bs "a") = Ok None.
Proof. exists 1%N. do 2 eexists. split; [vm_compute; reflexivity|]. split; vm_compute; reflexivity. Qed.
Print Assumptions C49_reseed_refuted.

(** Re-seeding while the map is unallocated is harmless: the history continues as a
    finite map under any other hash function. *)
Theorem C49_reseed_partial :
  forall (V : Type) (hash hash' : bytes -> N) (before after : list (mop V)) f m outs,
  m_run hash f map_new before = Ok (m, outs) -> mcap m = 0 ->
  forall g, m_run hash' g m after = Fuel \/
  exists m', m_run hash' g m after = Ok (m', snd (mspec_run [] after)).
Proof.
  intros V hash hash' b a f m outs E H0 g.
  destruct (m_run_spec hash f b map_new [] (mrep_new hash)) as [F|(m' & F & R)]; [congruence|].
  rewrite E in F. injection F as <- _.
  assert (R' : mrep hash' m []).
  { pose proof (mr_cap _ _ _ R) as C. destruct m as [sl ln cp st]. cbn in *. subst cp.
    destruct sl; [|cbn in C; lia].
    pose proof (mr_perm _ _ _ R) as P. cbn in P. apply Permutation_nil in P.
    pose proof (mr_len _ _ _ R) as L. rewrite P in L. cbn in L. subst ln.
    pose proof (mrep_new (V := V) hash') as N. destruct N. split; auto. cbn. lia. }
  destruct (m_run_spec hash' g a m [] R') as [?|(m2 & E2 & _)]; eauto.
Qed.
Print Assumptions C49_reseed_partial.

Example C49_example : exists m outs,
  m_run fnv 20 map_new [MPut (bs "a") 1; MFree] = Ok (m, outs) /\ mcap m = 0.
Proof. do 2 eexists. split; vm_compute; reflexivity. Qed.

(** C50.  Freeing a map releases every key string it duplicated, for histories that
    store at most six times ... *)
Theorem C50_free_partial :
  forall (V : Type) (hash : bytes -> N) (ops : list (mop V)) f m outs,
  m_run hash f map_new (ops ++ [MFree]) = Ok (m, outs) ->
  puts ops <= 6 ->
  mstrs m = 0.
Proof.
  intros V hash ops f m outs E H.
  pose proof (m_run_noleak hash f (ops ++ [MFree]) map_new [] m outs (mrep_new hash)) as P.
  cbn [mcap mlen mstrs map_new] in P. rewrite P; auto; try lia.
  - destruct (m_run_spec hash f (ops ++ [MFree]) map_new [] (mrep_new hash)) as [F|(m' & F & R)]; [congruence|].
    rewrite E in F. injection F as <- _. rewrite (mr_len _ _ _ R).
    clear. generalize (@nil (bytes * V)) at 1. induction ops as [|op ops IH]; intros l; cbn [app mspec_run].
    + reflexivity.
    + destruct (mspec_step l op) as [l1 o]. specialize (IH l1).
      destruct (mspec_run l1 (ops ++ [MFree])). cbn in *. auto.
  - replace (puts (ops ++ [MFree])) with (puts ops); [lia|]. unfold puts. rewrite filter_app, app_length. cbn. lia.
Qed.
Print Assumptions C50_free_partial.

Example C50_example : exists m outs,
  m_run fnv 20 map_new ([MPut (bs "a") 1; MPut (bs "b") 2; MRemove (bs "a")] ++ [MFree]) = Ok (m, outs).
Proof. do 2 eexists. vm_compute. reflexivity. Qed.

(** ... but the seventh key grows the table, and the six old strings are leaked. *)
Theorem C50_free_refuted :
  exists m outs,
    m_run fnv 40 map_new (map (fun i => MPut (k i) i) [0; 1; 2; 3; 4; 5; 6] ++ [MFree]) = Ok (m, outs) /\
    mstrs m = 6.
Proof. do 2 eexists. split; vm_compute; reflexivity. Qed.
Print Assumptions C50_free_refuted.
