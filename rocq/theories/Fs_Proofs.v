From Verif Require Import Common Vec_Model Vec_Proofs String_Model String_Spec String_Proofs Url_Proofs Fs_Model Fs_Spec Fs_Sys.

Lemma beq_bytes_eq a b : beq_bytes a b = true <-> a = b.
Proof. split; [apply beq_bytes_true|intros ->; apply beq_bytes_refl]. Qed.
Lemma beq_refl a : beq_bytes a a = true.
Proof. apply beq_bytes_refl. Qed.

Lemma lookup_remove l p q : lookup (remove l p) q = if beq_bytes q p then None else lookup l q.
Proof.
  induction l as [|[r n] l IH]; cbn [remove filter lookup fst]; [now destruct (beq_bytes q p)|].
  destruct (beq_bytes p r) eqn:E; cbn [negb].
  - unfold remove in IH. rewrite IH. apply beq_bytes_eq in E. subst r.
    destruct (beq_bytes q p); reflexivity.
  - cbn [lookup]. unfold remove in IH. rewrite IH. destruct (beq_bytes q r) eqn:Q; [|reflexivity].
    apply beq_bytes_eq in Q. subst r. destruct (beq_bytes q p) eqn:Q; [|reflexivity].
    apply beq_bytes_eq in Q. subst q. now rewrite beq_refl in E.
Qed.
Lemma lookup_store l p n q : lookup (store l p n) q = if beq_bytes q p then Some n else lookup l q.
Proof. unfold store. cbn [lookup]. rewrite lookup_remove. now destruct (beq_bytes q p). Qed.

(** The disk holds exactly the files f *)
Definition rep (d : disk) (f : files) : Prop := forall p, lookup (nodes d) p = option_map Reg (f p).

Lemma rep_store d f p b r : rep d f -> rep (mkdisk (store (nodes d) p (Reg b)) r) (set f p (Some b)).
Proof. intros R q. cbn [nodes]. rewrite lookup_store. unfold set. destruct (beq_bytes q p); [reflexivity|apply R]. Qed.
Lemma rep_ext d f g : rep d f -> (forall q, f q = g q) -> rep d g.
Proof. intros R E q. now rewrite <- E. Qed.
Lemma set_set f p a b q : set (set f p a) p b q = set f p b q.
Proof. unfold set. now destruct (beq_bytes q p). Qed.
Lemma set_same f p b q : f p = b -> set f p b q = f q.
Proof. intros E. unfold set. destruct (beq_bytes q p) eqn:Q; [|reflexivity]. apply beq_bytes_eq in Q. now subst. Qed.
Lemma set_at f p b : set f p b p = b.
Proof. unfold set. now rewrite beq_refl. Qed.

Lemma flush_ok d f p b pend : rep d f -> f p = Some b -> length pend <= room d ->
  exists d', flush d (mkstream p pend) = (d', true) /\ rep d' (set f p (Some (b ++ pend))) /\
    room d' = room d - length pend.
Proof.
  intros R E L. unfold flush. cbn [s_path pending]. rewrite (R p), E. cbn [option_map].
  rewrite Nat.min_r by lia. rewrite firstn_all, Nat.eqb_refl.
  eexists. splits; [reflexivity|now apply rep_store|reflexivity].
Qed.

Lemma write_all_ok p ts : forall d f b pend, rep d f -> f p = Some b ->
  length pend + length (all_texts ts) <= room d -> Forall (fun t => nonul (fst t)) ts ->
  exists d' b' pend', write_all d (Some (mkstream p pend)) ts = (d', Some (mkstream p pend'), true) /\
    rep d' (set f p (Some b')) /\ b' ++ pend' = b ++ pend ++ all_texts ts /\
    room d' + length b' = room d + length b.
Proof.
  induction ts as [|[t now] ts IH]; intros d f b pend R E L Z.
  - exists d, b, pend. cbn. rewrite app_nil_r. splits; auto.
    eapply rep_ext; [exact R|]. intros q. now rewrite set_same.
  - assert (Zt : nonul t) by now inversion Z. assert (Zs : Forall (fun t => nonul (fst t)) ts) by now inversion Z.
    cbn [write_all write_string s_path pending]. rewrite cstr_id by exact Zt.
    change (all_texts ((t, now) :: ts)) with (t ++ all_texts ts) in *. rewrite app_length in L.
    destruct now.
    + destruct (flush_ok d f p b (pend ++ t) R E ltac:(rewrite app_length; lia)) as (d1 & F & R1 & Q1).
      rewrite F. rewrite app_length in Q1.
      destruct (IH d1 _ (b ++ pend ++ t) [] R1 (set_at _ _ _)) as (d2 & b2 & p2 & -> & R2 & A & B); auto.
      { cbn. lia. }
      exists d2, b2, p2. splits; auto.
      * eapply rep_ext; [exact R2|]. intros q. apply set_set.
      * rewrite A. cbn. now rewrite <- !app_assoc.
      * rewrite !app_length in B. lia.
    + destruct (IH d f b (pend ++ t) R E) as (d2 & b2 & p2 & -> & R2 & A & B); auto.
      { rewrite app_length. lia. }
      exists d2, b2, p2. splits; auto. rewrite A. now rewrite <- !app_assoc.
Qed.

Lemma nonul_texts ts : ~ In 0%N (all_texts ts) -> Forall (fun t => nonul (fst t)) ts.
Proof.
  induction ts as [|[t n] ts IH]; intros H; constructor.
  - apply nonul_in. intros I. apply H. cbn. apply in_or_app. now left.
  - apply IH. intros I. apply H. cbn. apply in_or_app. now right.
Qed.

Lemma put_ok d f p m ts b : rep d f -> m <> Rd ->
  b = match m with Wr => [] | _ => match f p with Some b => b | None => [] end end ->
  length (all_texts ts) <= room d -> ~ In 0%N (all_texts ts) ->
  exists d', put d p m ts = (d', Written true) /\ rep d' (set f p (Some (b ++ all_texts ts))) /\
    room d <= room d' + length (all_texts ts).
Proof.
  intros R M B L Z.
  assert (O : exists d1, open d p m = (d1, ok (Some (mkstream p []))) /\ rep d1 (set f p (Some b)) /\ room d <= room d1).
  { unfold open, fopen. rewrite (R p). destruct (f p) as [c|] eqn:E; cbn [option_map].
    - destruct m; [|exists d; subst b|easy].
      + subst b. eexists. splits; [reflexivity|now apply rep_store|cbn; lia].
      + splits; auto. eapply rep_ext; [exact R|]. intros q. now rewrite set_same.
    - destruct m; [| |easy]; subst b; (eexists; splits; [reflexivity|now apply rep_store|cbn; lia]). }
  destruct O as (d1 & O & R1 & L1). unfold put. rewrite O.
  destruct (write_all_ok p ts d1 _ b [] R1 (set_at _ _ _)) as (d2 & b2 & p2 & W & R2 & A & C); [cbn; lia|now apply nonul_texts|].
  rewrite W. cbn [close]. cbn in A.
  assert (LL : length b2 + length p2 = length b + length (all_texts ts)) by (rewrite <- !app_length; now rewrite A).
  destruct (flush_ok d2 _ p b2 p2 R2 (set_at _ _ _)) as (d3 & F & R3 & D); [lia|].
  rewrite F. exists d3. splits; auto.
  - rewrite <- A. eapply rep_ext; [exact R3|]. intros q. now rewrite !set_set.
  - lia.
Qed.

Lemma read_reg malloc d p b : lookup (nodes d) p = Some (Reg b) -> (forall n, malloc n = true) ->
  (N.of_nat (length b) < 2 ^ 63)%N ->
  exists s, read_all malloc d p = Ok (ok s) /\ shold s (cstr b).
Proof.
  intros E Ml S. unfold read_all, open, fopen. rewrite E. unfold read_to_string. cbn [s_path]. rewrite E.
  assert (U : (Z.of_nat (length b) mod 2 ^ 64 = Z.of_nat (length b))%Z) by (apply Z.mod_small; lia).
  rewrite U. replace (Z.to_N (Z.of_nat (length b))) with (N.of_nat (length b)) by lia.
  rewrite (N.mod_small (N.of_nat (length b) + 1)) by lia. rewrite Ml.
  rewrite N.min_id, Nat2N.id, Nat.min_id, firstn_all.
  destruct (N.leb_spec (N.of_nat (length b) + 1) (N.of_nat (length b) + 1)); [|lia].
  destruct (snew_ok (b ++ [0%N])) as (s & Es & Hs). rewrite Es. cbn [bind]. exists s. split; [reflexivity|].
  assert (C : cstr (b ++ [0%N]) = cstr b).
  { clear. induction b as [|c b IH]; [reflexivity|]. cbn. destruct (c =? 0)%N; [reflexivity|]. now f_equal. }
  now rewrite C in Hs.
Qed.
Lemma read_none malloc d p : lookup (nodes d) p = None -> exists e, read_all malloc d p = Ok (err e).
Proof. intros E. unfold read_all, open, fopen. rewrite E. eexists. reflexivity. Qed.

Definition sized (B : nat) (f : files) : Prop := forall p b, f p = Some b -> length b <= B /\ nonul b.

Lemma step_ok malloc d f B op : rep d f -> sized B f -> (forall n, malloc n = true) ->
  asks op <= room d -> c_texts op -> (N.of_nat B < 2 ^ 63)%N ->
  exists d', sys_step malloc d op = Ok (d', snd (fs_step f op)) /\ rep d' (fst (fs_step f op)) /\
    sized (B + asks op) (fst (fs_step f op)) /\ room d <= room d' + asks op.
Proof.
  intros R S Ml A C LB. destruct op as [p ts|p ts|p|p|p|p]; cbn [sys_step fs_step fst snd asks c_texts] in *.
  - destruct (put_ok d f p Wr ts [] R ltac:(discriminate) eq_refl A C) as (d' & E & R' & L').
    exists d'. rewrite E. splits; auto. intros q b. unfold set. destruct (beq_bytes q p).
    + intros [= <-]. split; [lia|now apply nonul_in].
    + intros Q. apply S in Q as [Q1 Q2]. split; [lia|auto].
  - destruct (put_ok d f p Ap ts _ R ltac:(discriminate) eq_refl A C) as (d' & E & R' & L').
    exists d'. rewrite E. splits; auto. intros q b. unfold set. destruct (beq_bytes q p).
    + intros [= <-]. rewrite app_length. destruct (f p) as [c|] eqn:Ep.
      * apply S in Ep as [Q1 Q2]. split; [lia|]. apply nonul_app; [exact Q2|now apply nonul_in].
      * cbn. split; [lia|now apply nonul_in].
    + intros Q. apply S in Q as [Q1 Q2]. split; [lia|auto].
  - exists d. assert (Q := R p). destruct (f p) as [b|] eqn:Ep; cbn [option_map] in Q.
    + apply S in Ep as [Q1 Q2]. destruct (read_reg malloc d p b Q Ml ltac:(lia)) as (s & -> & Hs). cbn [bind].
      rewrite cstr_id in Hs by exact Q2. rewrite (cread_ok _ _ Hs). cbn [bind].
      splits; auto; [|lia]. intros q c Qc. apply S in Qc. rewrite Nat.add_0_r. auto.
    + destruct (read_none malloc d p Q) as (e & ->). cbn [bind]. splits; auto; [|lia].
      intros q c Qc. apply S in Qc. rewrite Nat.add_0_r. auto.
  - exists d. unfold exists_. rewrite (R p). splits; auto; [now destruct (f p)| |lia].
    intros q c Qc. apply S in Qc. rewrite Nat.add_0_r. auto.
  - exists d. unfold metadata. rewrite (R p). splits; auto; [now destruct (f p)| |lia].
    intros q c Qc. apply S in Qc. rewrite Nat.add_0_r. auto.
  - unfold remove_file. rewrite (R p). destruct (f p) as [b|] eqn:Ep; cbn [option_map].
    + eexists. splits; [reflexivity| | |cbn; lia].
      * intros q. cbn [nodes]. rewrite lookup_remove. unfold set. destruct (beq_bytes q p); [reflexivity|apply R].
      * intros q c. unfold set. destruct (beq_bytes q p); [discriminate|]. rewrite Nat.add_0_r. apply S.
    + exists d. splits; auto; [| |lia].
      * intros q. unfold set. destruct (beq_bytes q p) eqn:Q; [|apply R]. apply beq_bytes_eq in Q. subst q.
        now rewrite (R p), Ep.
      * intros q c. unfold set. destruct (beq_bytes q p); [discriminate|]. rewrite Nat.add_0_r. apply S.
Qed.

Definition asked (ops : list fsop) : nat := list_sum (map asks ops).

Lemma run_ok malloc ops : forall d f B, rep d f -> sized B f -> (forall n, malloc n = true) ->
  asked ops <= room d -> Forall c_texts ops -> (N.of_nat (B + asked ops) < 2 ^ 63)%N ->
  sys_run malloc d ops = Ok (fs_run f ops).
Proof.
  induction ops as [|op ops IH]; intros d f B R S Ml A C LB; [reflexivity|].
  cbn [sys_run fs_run]. unfold asked in A, LB. cbn [map list_sum fold_right] in A, LB. fold (list_sum (map asks ops)) in A, LB.
  fold (asked ops) in A, LB. assert (C1 : c_texts op) by now inversion C. assert (C2 : Forall c_texts ops) by now inversion C.
  destruct (step_ok malloc d f B op R S Ml ltac:(lia) C1 ltac:(lia)) as (d' & E & R' & S' & L').
  rewrite E. cbn [bind fst snd]. destruct (fs_step f op) as [f' a]. cbn [fst snd] in *.
  rewrite (IH d' f' (B + asks op) R' S' Ml); auto; lia.
Qed.
