(** Property C75: `for x in v` visits every item once, in order. *)
From Verif Require Import Common Vec_Model Vec_Props Vec_Proofs ForIn_Model ForIn_Spec ForIn_Proofs.
Local Open Scope nat_scope.

(** C75, for every vector and every body that keeps the number of items between what it was at
    the start of the loop and the capacity: the loop shows the body the items the
    specification shows it, ends as it does, panics when it does and leaves the vector it
    leaves, by value and by reference.  Missing: bodies that make the vector grow or shrink
    (below). *)
Theorem C75_for_in_partial :
  forall (A : Type) (body : nat -> A -> list A -> list (act A) * ending) how (p : place A) l,
  holds (vec_ p) l -> stays_between body how (length l) (cap (vec_ p)) ->
  match for_spec body how l with
  | Some (xs, e, l') => exists p', for_in body how p = Ok (xs, e, p') /\ holds (vec_ p') l'
  | None => for_in body how p = Panic
  end.
Proof.
  intros A body how p l H St. apply holds_vrep in H. destruct (vrep_len _ _ H) as [L C].
  unfold for_in, iterator, for_spec. rewrite L.
  pose proof (loop_ok body how (length l) (length l) (S (length l)) 0 p l St H ltac:(lia) ltac:(lia) ltac:(lia)) as R.
  destruct (visit body (length l) how 0 l) as [[[xs e] l']|]; auto.
  destruct R as (p' & E & R). exists p'. split; auto. now apply holds_vrep.
Qed.
Print Assumptions C75_for_in_partial.

(** A body that doubles every item in place by reference, appends one item and stops at 7 *)
Definition a_body (pos : nat) (x : nat) (l : list nat) : list (act nat) * ending :=
  (Store (2 * x) :: (if length l =? 4 then [Push 100] else []), if x =? 7 then Break else Next).
Example C75_example :
  exists p : place nat, holds (vec_ p) [5; 6; 7; 8] /\ cap (vec_ p) = 8
  /\ stays_between a_body ByRef (length [5; 6; 7; 8]) (cap (vec_ p))
  /\ for_spec a_body ByRef [5; 6; 7; 8] = Some ([5; 6; 7], Next, [10; 12; 14; 8; 100])
  /\ exists p', for_in a_body ByRef p = Ok ([5; 6; 7], Next, p') /\ holds (vec_ p') [10; 12; 14; 8; 100].
Proof.
  exists (Build_place (mkvec ([Some 5; Some 6; Some 7; Some 8] ++ repeat None 4) 4 8) 3).
  assert (H : holds (vec_ (Build_place (mkvec ([Some 5; Some 6; Some 7; Some 8] ++ repeat None 4) 4 8) 3)) [5; 6; 7; 8])
    by (repeat split; cbn; lia).
  assert (St : stays_between a_body ByRef (length [5; 6; 7; 8]) 8).
  { intros pos x l B P done rest l' E S. cbn [a_body fst length] in *.
    destruct (Nat.eqb_spec (length l) 4) as [E4|E4].
    - destruct done as [|a [|b [|c d]]]; cbn in E; inversion E; subst; cbn in S.
      + inversion S; subst; lia.
      + inversion S; subst. rewrite length_upd. lia.
      + inversion S; subst. rewrite app_length, length_upd. cbn. lia.
    - destruct done as [|a [|b d]]; cbn in E; inversion E; subst; cbn in S.
      + inversion S; subst; lia.
      + inversion S; subst. rewrite length_upd. lia. }
  splits; auto.
  pose proof (C75_for_in_partial _ a_body ByRef _ _ H St) as T. exact T.
Qed.

(** A body that does nothing to the vector sees exactly its items, all of them unless it stops *)
Theorem C75_read_only :
  forall (A : Type) (stop : nat -> A -> ending) how (p : place A) l, holds (vec_ p) l ->
  exists n e, n <= length l /\ for_in (fun k x _ => ([], stop k x)) how p = Ok (firstn n l, e, p)
  /\ (n < length l -> exists k x, S k = n /\ nth_error l k = Some x /\ stop k x <> Next)
  /\ (forall k x, S k < n -> nth_error l k = Some x -> stop k x = Next)
  /\ (e = Return <-> exists k x, S k = n /\ nth_error l k = Some x /\ stop k x = Return).
Proof.
  intros A stop how p l H. apply holds_vrep in H. destruct (vrep_len _ _ H) as [L C].
  unfold for_in, iterator. rewrite L. destruct H as (tl & Ed & _).
  assert (G : forall m f pos, pos + m = length l -> m < f ->
    exists n e, n <= m
    /\ loop (fun k x _ => ([], stop k x)) f how pos (Build_iter (blk p) (length l) pos) p = Ok (firstn n (skipn pos l), e, p)
    /\ (n < m -> exists k x, S k = pos + n /\ pos <= k /\ nth_error l k = Some x /\ stop k x <> Next)
    /\ (forall k x, pos <= k -> S k < pos + n -> nth_error l k = Some x -> stop k x = Next)
    /\ (e = Return <-> exists k x, S k = pos + n /\ pos <= k /\ nth_error l k = Some x /\ stop k x = Return)).
  { induction m as [|m IH]; intros f pos N F; (destruct f as [|f]; [lia|]); cbn [loop]; unfold next; cbn [i_idx i_count i_blk].
    - destruct (Nat.ltb_spec pos (length l)); [lia|]. exists 0, Next. cbn [bind]. splits; auto; try lia.
      split; [discriminate|]. intros (k & x & K1 & K2 & _). lia.
    - destruct (Nat.ltb_spec pos (length l)) as [P|P]; [|lia].
      destruct (nth_error_lt l pos P) as [x Ex]. unfold through. rewrite Nat.eqb_refl, Ed, (bget_map_eq _ tl _ _ Ex).
      cbn [bind acts_run]. rewrite (skipn_cons _ _ _ Ex). destruct (stop pos x) eqn:St.
      + destruct (IH f (S pos) ltac:(lia) ltac:(lia)) as (n & e & Ln & E & I1 & I2 & I3).
        replace (pos + 1) with (S pos) by lia. rewrite E. exists (S n), e. cbn [bind firstn].
        splits; auto; try lia.
        * intros K. destruct I1 as (k & y & K1 & K2 & K3); [lia|]. destruct K3. exists k, y. splits; auto; lia.
        * intros k y K1 K2 K3. destruct (Nat.eq_dec k pos) as [->|]; [congruence|]. apply I2; auto; lia.
        * rewrite I3. split.
          -- intros (k & y & K1 & K2 & K3 & K4). exists k, y. splits; auto; lia.
          -- intros (k & y & K1 & K2 & K3 & K4). exists k, y. splits; auto; try lia.
             destruct (Nat.eq_dec k pos) as [->|]; [congruence|lia].
      + exists 1, Next. cbn [firstn]. splits; auto; try lia.
        * intros _. exists pos, x. splits; auto; try lia. congruence.
        * split; [discriminate|]. intros (k & y & K1 & K2 & K3 & K4). assert (k = pos) by lia. congruence.
      + exists 1, Return. cbn [firstn]. splits; auto; try lia.
        * intros _. exists pos, x. splits; auto; try lia. congruence.
        * split; [intros _|reflexivity]. exists pos, x. splits; auto; lia. }
  destruct (G (length l) (S (length l)) 0 ltac:(lia) ltac:(lia)) as (n & e & Ln & E & I1 & I2 & I3).
  exists n, e. cbn [skipn] in E. splits; auto.
  - intros K. destruct (I1 K) as (k & x & K1 & _ & K2 & K3). exists k, x. splits; auto.
  - intros k x K1 K2. apply I2; auto; lia.
  - rewrite I3. split; intros (k & x & K); exists k, x; splits; try tauto; lia.
Qed.
Print Assumptions C75_read_only.
Example C75_read_only_example :
  exists p : place nat, holds (vec_ p) [5; 6; 7]
  /\ for_in (fun k x _ => ([], if x =? 6 then Break else Next)) ByValue p = Ok ([5; 6], Next, p).
Proof.
  exists (Build_place (mkvec ([Some 5; Some 6; Some 7] ++ repeat None 5) 3 8) 1). split; [repeat split; cbn; lia|].
  vm_compute. reflexivity.
Qed.

(** C75 for fixed arrays, for every body that stores inside the array *)
Theorem C75_array :
  forall (A : Type) (body : nat -> A -> list A -> list (nat * A) * ending) (l : list A),
  in_range body ->
  let '(xs, e, l') := arr_visit body (length l) 0 l in
  for_in_array body (map Some l) = Ok (xs, e, map Some l').
Proof.
  intros A body l R. unfold for_in_array. rewrite map_length.
  apply (arr_loop_ok body R (length l) (S (length l)) 0 l); lia.
Qed.
Print Assumptions C75_array.
(** Every item is written to the next place before that is visited *)
Definition smear (pos x : nat) (l : list nat) : list (nat * nat) * ending :=
  (if S pos <? length l then [(S pos, x + 1)] else [], Next).
Example C75_array_example :
  in_range smear /\ arr_visit smear 3 0 [4; 0; 0] = ([4; 5; 6], Next, [4; 5; 6]).
Proof.
  split; [|reflexivity]. intros pos x l i y H. unfold smear in H. cbn [fst] in H.
  destruct (Nat.ltb_spec (S pos) (length l)); cbn in H; [|contradiction].
  destruct H as [H|[]]. inversion H; subst. assumption.
Qed.

(** C75 fails when the body makes the vector grow: the second item is read from the block
    that realloc took away, for every full vector of two items or more *)
Theorem C75_growth_refuted :
  forall (A : Type) (p : place A) l y how, holds (vec_ p) l -> cap (vec_ p) = length l -> 2 <= length l ->
  for_in (fun _ _ _ => ([Push y], Next)) how p = UB.
Proof.
  intros A p l y how H C N. apply holds_vrep in H. pose proof (vrep_len _ _ H) as [L _].
  unfold for_in, iterator. rewrite L. destruct l as [|a [|b l]]; cbn [length] in N; try lia.
  pose proof H as (tl & Ed & _). cbn [loop]. unfold next at 1. cbn [i_idx i_count i_blk Nat.ltb Nat.leb length].
  unfold through. rewrite Nat.eqb_refl, Ed. cbn [map app bget nth_error bind acts_run act_run].
  unfold bget. cbn [nth_error bind].
  destruct (vpush_ok (fun _ _ => true) (vec_ p) (a :: b :: l) y) as (v' & E & R').
  { exact H. }
  rewrite E. cbn [bind].
  assert (Cap : cap v' <> cap (vec_ p)).
  { destruct (vrep_len _ _ R') as [_ K]. rewrite app_length in K. cbn [length] in K. cbn [length] in C. lia. }
  unfold moved. destruct (Nat.eqb_spec (cap v') (cap (vec_ p))); [contradiction|].
  change (0 <? S (S (length l))) with true. cbn [bind loop]. unfold next. cbn [i_idx i_count i_blk].
  change (0 + 1 <? S (S (length l))) with true. unfold through. cbn [blk vec_].
  destruct (Nat.eqb_spec (blk p) (S (blk p))); [lia|]. reflexivity.
Qed.
Print Assumptions C75_growth_refuted.
Example C75_growth_example :
  exists p : place nat, holds (vec_ p) [1; 2; 3; 4; 5; 6; 7; 8] /\ cap (vec_ p) = 8
  /\ for_spec (fun _ x _ => ([Push x], Next)) ByValue [1; 2] = Some ([1; 2], Next, [1; 2; 1; 2]).
Proof.
  exists (Build_place (mkvec (map Some [1; 2; 3; 4; 5; 6; 7; 8]) 8 8) 1). splits; try reflexivity.
  repeat split; cbn; lia.
Qed.

(** C75 fails when the body shortens the vector: with a pop in the body the loop still shows
    every item, also those that were removed before their turn *)
Theorem C75_shrink_refuted :
  (forall (A : Type) (p : place A) l how, holds (vec_ p) l ->
   exists p', for_in (fun _ _ _ => ([Pop], Next)) how p = Ok (l, Next, p') /\ holds (vec_ p') [])
  /\ for_spec (fun _ _ _ => ([Pop], Next)) ByValue [1; 2; 3; 4] = Some ([1; 2], Next, [1; 2]).
Proof.
  split; [|reflexivity]. intros A p l how H. apply holds_vrep in H. pose proof (vrep_len _ _ H) as [L C0].
  unfold for_in, iterator. rewrite L. destruct H as (tl & Ed & _ & Ec).
  assert (G : forall m f pos, pos + m = length l -> m < f ->
    loop (fun _ _ _ => ([Pop], Next)) f how pos (Build_iter (blk p) (length l) pos)
      (Build_place (mkvec (map Some l ++ tl) m (cap (vec_ p))) (blk p))
    = Ok (skipn pos l, Next, Build_place (mkvec (map Some l ++ tl) 0 (cap (vec_ p))) (blk p))).
  { induction m as [|m IH]; intros f pos N F; (destruct f as [|f]; [lia|]); cbn [loop]; unfold next; cbn [i_idx i_count i_blk].
    - destruct (Nat.ltb_spec pos (length l)); [lia|]. cbn [bind].
      rewrite skipn_all2 by lia. reflexivity.
    - destruct (Nat.ltb_spec pos (length l)) as [P|P]; [|lia].
      destruct (nth_error_lt l pos P) as [x Ex]. unfold through. cbn [blk vec_ data].
      rewrite Nat.eqb_refl, (bget_map_eq _ tl _ _ Ex). cbn [bind acts_run act_run vec_].
      unfold vpop. cbn [len data cap]. destruct (Nat.eqb_spec (S m) 0); [lia|].
      destruct (nth_error_lt l (S m - 1)) as [z Ez]; [lia|]. rewrite (bget_map_eq _ tl _ _ Ez). cbn [bind].
      rewrite moved_same by reflexivity. cbn [blk].
      replace (S m - 1) with m by lia. replace (pos + 1) with (S pos) by lia.
      rewrite IH by lia. cbn [bind]. rewrite (skipn_cons _ _ _ Ex). replace (pos + 1) with (S pos) by lia. reflexivity. }
  eexists. split.
  - replace p with (Build_place (mkvec (map Some l ++ tl) (length l) (cap (vec_ p))) (blk p)) at 2.
    + rewrite G by lia. reflexivity.
    + destruct p as [[d n c] b]. cbn in *. congruence.
  - cbn [vec_]. repeat split; cbn; try lia. now rewrite Ec, Ed.
Qed.
Print Assumptions C75_shrink_refuted.
