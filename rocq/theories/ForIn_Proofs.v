From Verif Require Import Common Vec_Model Vec_Spec Vec_Proofs ForIn_Model ForIn_Spec.
Local Open Scope nat_scope.

Section P.
  Context {A : Type}.
  Implicit Types (p : place A) (l : list A) (v : vec A).

  Lemma vpush_cap v x v' : vpush v x = Ok v' -> len v < cap v -> cap v' = cap v.
  Proof.
    unfold vpush. intros H L. destruct (Nat.leb_spec (cap v) (len v)); [lia|].
    destruct (bset (data v) (len v) x); cbn in H; inversion H; reflexivity.
  Qed.
  Lemma vinsert_cap v k x v' : vinsert v k x = Ok v' -> len v < cap v -> cap v' = cap v.
  Proof.
    unfold vinsert. intros H L. destruct (Nat.ltb_spec (len v) k); [discriminate|].
    destruct (Nat.leb_spec (cap v) (len v)); [lia|].
    destruct (if k <? len v then _ else _) as [d| | |]; cbn [bind] in H; try discriminate.
    destruct (bset d k x); cbn in H; inversion H; reflexivity.
  Qed.
  Lemma vremove_cap v k v' x : vremove v k = Ok (v', x) -> cap v' = cap v.
  Proof.
    unfold vremove. intros H. destruct (Nat.leb_spec (len v) k); [discriminate|].
    destruct (bget (data v) k); cbn [bind] in H; try discriminate.
    destruct (if k <? len v - 1 then _ else _) as [d| | |]; cbn in H; inversion H; reflexivity.
  Qed.
  Lemma vset_cap v k x v' : vset v k x = Ok v' -> cap v' = cap v.
  Proof.
    unfold vset. intros H. destruct (Nat.leb_spec (len v) k); [discriminate|].
    destruct (bset (data v) k x); cbn in H; inversion H; reflexivity.
  Qed.
  Lemma moved_same p v : cap v = cap (vec_ p) -> moved p v = Build_place v (blk p).
  Proof. intros H. unfold moved. now rewrite H, Nat.eqb_refl. Qed.

  Lemma snoc_inv l : l <> [] -> exists y, l = removelast l ++ [y].
  Proof. intros H. exists (last l (hd (match l with x :: _ => x | [] => ltac:(destruct l; [contradiction H; reflexivity|exact a]) end) l)). now apply app_removelast_last. Qed.

  Lemma vrep_len v l : vrep v l -> len v = length l /\ length l <= cap v.
  Proof. intros (tl & E & L & C). rewrite C, E, app_length, map_length. lia. Qed.

  Lemma act_ok how p l a pos l' :
    vrep (vec_ p) l -> act_spec how pos l a = Some l' -> 0 < length l' <= cap (vec_ p) -> pos < length l ->
    exists p', act_run how (blk p, pos) p a = Ok p' /\ vrep (vec_ p') l' /\ cap (vec_ p') = cap (vec_ p) /\ blk p' = blk p.
  Proof.
    intros R S B P. destruct (vrep_len _ _ R) as [L C].
    destruct a; cbn [act_spec act_run] in *.
    - inversion S; subst; clear S. rewrite app_length in B. cbn in B.
      destruct (vpush_ok (fun _ _ => true) _ _ x R) as (v' & E & R'). rewrite E. cbn [bind].
      pose proof (vpush_cap _ _ _ E ltac:(lia)) as Cp. rewrite (moved_same _ _ Cp). eexists. splits; eauto.
    - destruct (Nat.leb_spec k (length l)); [|discriminate]. inversion S; subst; clear S.
      assert (length (firstn k l ++ x :: skipn k l) = 1 + length l).
      { rewrite app_length. cbn. rewrite firstn_length, skipn_length. lia. }
      destruct (vinsert_ok (fun _ _ => true) _ _ k x R H) as (v' & E & R'). rewrite E. cbn [bind].
      pose proof (vinsert_cap _ _ _ _ E ltac:(lia)) as Cp. rewrite (moved_same _ _ Cp). eexists. splits; eauto.
    - destruct l as [|x0 l0]; [discriminate|]. inversion S; clear S. remember (x0 :: l0) as m.
      destruct (snoc_inv m) as [y Ey]; [subst; discriminate|]. rewrite Ey in R.
      destruct (vpop_core (fun _ _ => true) _ _ _ R) as (G & R' & Z). unfold vpop.
      destruct (Nat.eqb_spec (len (vec_ p)) 0); [lia|]. rewrite G. cbn [bind].
      rewrite moved_same by reflexivity. eexists. splits; eauto. subst m. exact R'.
    - destruct (Nat.ltb_spec k (length l)); [|discriminate]. inversion S; subst; clear S.
      destruct (nth_error_lt l k H) as [y Ey].
      destruct (vremove_ok (fun _ _ => true) _ _ k y R Ey) as (v' & E & R'). rewrite E. cbn [bind].
      pose proof (vremove_cap _ _ _ _ E) as Cp. rewrite (moved_same _ _ Cp). eexists. splits; eauto.
    - destruct (Nat.ltb_spec k (length l)); [|discriminate]. inversion S; subst; clear S.
      destruct (vset_ok (fun _ _ => true) _ _ k x R H) as (v' & E & R'). rewrite E. cbn [bind].
      pose proof (vset_cap _ _ _ _ E) as Cp. rewrite (moved_same _ _ Cp). eexists. splits; eauto.
    - inversion S; subst. cbn in B. lia.
    - inversion S; subst. cbn in B. lia.
    - destruct how; inversion S; subst; clear S.
      + eexists. splits; eauto.
      + unfold through. cbn [fst snd]. rewrite Nat.eqb_refl.
        destruct (vset_ok (fun _ _ => true) _ _ pos x R P) as (v' & E & R'). unfold vset in E.
        destruct (Nat.leb_spec (len (vec_ p)) pos); [lia|].
        destruct (bset (data (vec_ p)) pos x); cbn [bind] in *; inversion E; subst.
        eexists. splits; eauto.
  Qed.

  Lemma act_panic how p l a pos cur :
    vrep (vec_ p) l -> act_spec how pos l a = None -> act_run how cur p a = Panic.
  Proof.
    intros R S. destruct (vrep_len _ _ R) as [L C].
    destruct a; cbn [act_spec act_run] in *; try discriminate.
    - destruct (Nat.leb_spec k (length l)); [discriminate|]. unfold vinsert.
      destruct (Nat.ltb_spec (len (vec_ p)) k); [reflexivity|lia].
    - destruct l; [|discriminate]. unfold vpop. cbn in L. rewrite L. reflexivity.
    - destruct (Nat.ltb_spec k (length l)); [discriminate|]. unfold vremove.
      destruct (Nat.leb_spec (len (vec_ p)) k); [reflexivity|lia].
    - destruct (Nat.ltb_spec k (length l)); [discriminate|]. unfold vset.
      destruct (Nat.leb_spec (len (vec_ p)) k); [reflexivity|lia].
    - destruct how; discriminate.
  Qed.

  Lemma acts_ok how lo pos : forall acts p l,
    vrep (vec_ p) l -> lo <= length l -> pos < lo ->
    (forall done rest l', acts = done ++ rest -> acts_spec how pos l done = Some l' -> lo <= length l' <= cap (vec_ p)) ->
    match acts_spec how pos l acts with
    | Some l' => exists p', acts_run how (blk p, pos) p acts = Ok p' /\ vrep (vec_ p') l' /\ cap (vec_ p') = cap (vec_ p) /\ blk p' = blk p
    | None => acts_run how (blk p, pos) p acts = Panic
    end.
  Proof.
    induction acts as [|a r IH]; intros p l R L P B; cbn [acts_spec acts_run].
    - eexists. splits; eauto.
    - destruct (act_spec how pos l a) as [l1|] eqn:S.
      + assert (B1 : lo <= length l1 <= cap (vec_ p)).
        { apply (B [a] r); [reflexivity|]. cbn [acts_spec]. now rewrite S. }
        destruct (act_ok how p l a pos l1 R S) as (p1 & E & R1 & C1 & K1); [lia|lia|].
        rewrite E. cbn [bind].
        specialize (IH p1 l1 R1 ltac:(lia) P). rewrite C1, K1 in IH. apply IH.
        intros d t l' Ed Es. apply (B (a :: d) t); [now rewrite Ed|]. cbn [acts_spec]. now rewrite S.
      + rewrite (act_panic _ _ _ _ _ (blk p, pos) R S). reflexivity.
  Qed.

  Lemma flat_some l : flat_map (fun c => match c with Some x => [x] | None => [] end) (map Some l) = l.
  Proof. induction l; cbn; congruence. Qed.
  Lemma contents_ok v l : vrep v l -> contents v = l.
  Proof. intros R. unfold contents. rewrite (vrep_contents _ _ R). apply flat_some. Qed.

  Variable body : nat -> A -> list A -> list (act A) * ending.

  Lemma loop_ok how lo : forall n f pos p l,
    stays_between body how lo (cap (vec_ p)) ->
    vrep (vec_ p) l -> lo <= length l -> pos + n = lo -> n < f ->
    match visit body n how pos l with
    | Some (xs, e, l') => exists p', loop body f how pos (Build_iter (blk p) lo pos) p = Ok (xs, e, p') /\ vrep (vec_ p') l'
    | None => loop body f how pos (Build_iter (blk p) lo pos) p = Panic
    end.
  Proof.
    induction n as [|n IH]; intros f pos p l St R L N F.
    - destruct f; [lia|]. cbn [visit loop next]. unfold next. cbn [i_idx i_count].
      destruct (Nat.ltb_spec pos lo); [lia|]. cbn [bind]. eexists. splits; eauto.
    - destruct f as [|f]; [lia|]. cbn [visit loop]. unfold next. cbn [i_idx i_count i_blk].
      destruct (Nat.ltb_spec pos lo); [|lia].
      destruct (nth_error_lt l pos) as [x Ex]; [lia|]. rewrite Ex.
      unfold through. rewrite Nat.eqb_refl.
      pose proof R as (tl & Ed & _). rewrite Ed, (bget_map_eq _ tl _ _ Ex). cbn [bind].
      rewrite (contents_ok _ _ R).
      assert (Sp := acts_ok how lo pos (fst (body pos x l)) p l R L H).
      specialize (Sp (fun d r l' E1 E2 => St pos x l (conj L (proj2 (vrep_len _ _ R))) H d r l' E1 E2)).
      assert (St0 := St pos x l (conj L (proj2 (vrep_len _ _ R))) H (fst (body pos x l)) []).
      rewrite app_nil_r in St0.
      destruct (body pos x l) as [acts e] eqn:Eb. cbn [fst snd] in *.
      destruct (acts_spec how pos l acts) as [l1|] eqn:Sl.
      + destruct Sp as (p1 & E & R1 & C1 & K1). rewrite E. cbn [bind].
        assert (B1 : lo <= length l1 <= cap (vec_ p)).
        { now apply St0. }
        destruct e.
        * rewrite <- C1 in St. specialize (IH f (S pos) p1 l1 St R1 ltac:(lia) ltac:(lia) ltac:(lia)).
          rewrite K1 in IH. replace (pos + 1) with (S pos) by lia.
          destruct (visit body n how (S pos) l1) as [[[xs e] l']|].
          -- destruct IH as (p' & E' & R'). rewrite E'. cbn [bind]. eexists. splits; eauto.
          -- rewrite IH. reflexivity.
        * eexists. splits; eauto.
        * eexists. splits; eauto.
      + rewrite Sp. reflexivity.
  Qed.
End P.

Section Arrays.
  Context {A : Type}.
  Variable body : nat -> A -> list A -> list (nat * A) * ending.

  Lemma arr_acts_ok : forall acts (l : list A), (forall i y, In (i, y) acts -> i < length l) ->
    arr_acts (map Some l) acts = Ok (map Some (stores l acts)) /\ length (stores l acts) = length l.
  Proof.
    induction acts as [|[i x] r IH]; intros l H; cbn [arr_acts stores]; [now split|].
    assert (Hi : i < length l) by (apply (H i x); now left).
    unfold bset. rewrite map_length. destruct (Nat.ltb_spec i (length l)); [|lia]. cbn [bind].
    rewrite upd_map. destruct (IH (upd l i x)) as [E L].
    - intros j y Hj. rewrite length_upd. apply (H j y). now right.
    - rewrite E, L, length_upd. auto.
  Qed.

  Lemma arr_loop_ok : in_range body -> forall n f pos (l : list A), pos + n = length l -> n < f ->
    let '(xs, e, l') := arr_visit body n pos l in
    arr_loop body f (length l) pos (map Some l) = Ok (xs, e, map Some l').
  Proof.
    intros R. induction n as [|n IH]; intros f pos l N F.
    - destruct f; [lia|]. cbn [arr_visit arr_loop]. destruct (Nat.ltb_spec pos (length l)); [lia|]. reflexivity.
    - destruct f as [|f]; [lia|]. cbn [arr_visit arr_loop].
      destruct (Nat.ltb_spec pos (length l)); [|lia].
      destruct (nth_error_lt l pos) as [x Ex]; [lia|]. rewrite Ex.
      pose proof (bget_map_eq l [] pos x Ex) as G. rewrite app_nil_r in G. rewrite G. cbn [bind].
      unfold items. rewrite flat_some.
      destruct (arr_acts_ok (fst (body pos x l)) l) as [E L]; [intros i y; apply R|].
      destruct (body pos x l) as [acts e]. cbn [fst snd] in *.
      rewrite E. cbn [bind]. destruct e; auto.
      specialize (IH f (S pos) (stores l acts)). rewrite L in IH.
      specialize (IH ltac:(lia) ltac:(lia)).
      destruct (arr_visit body n (S pos) _) as [[xs e] l'].
      replace (pos + 1) with (S pos) by lia. rewrite IH. reflexivity.
  Qed.
End Arrays.
