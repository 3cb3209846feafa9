From Verif Require Import Common Vec_Model Vec_Proofs String_Model String_Spec String_Sys.

Definition vpush_ok {A} := @Vec_Proofs.vpush_ok A (fun _ _ => true).
Definition vget_ok {A} := @Vec_Proofs.vget_ok A (fun _ _ => true).
Definition vpop_core {A} := @Vec_Proofs.vpop_core A (fun _ _ => true).

Definition nonul (b : bytes) : Prop := Forall (fun c => c <> 0%N) b.
Definition shold (v : str) (b : bytes) : Prop := vrep v (b ++ [0%N]) /\ nonul b.

Lemma cstr_nonul s : nonul (cstr s).
Proof.
  induction s; cbn; [constructor|]. destruct (N.eqb_spec a 0); constructor; auto.
Qed.
Lemma cstr_id b : nonul b -> cstr b = b.
Proof.
  induction 1; cbn; auto. destruct (N.eqb_spec x 0); [easy|]. now rewrite IHForall.
Qed.
Lemma nonul_app a b : nonul a -> nonul b -> nonul (a ++ b).
Proof. intros. apply Forall_app; auto. Qed.
Lemma nonul_firstn n b : nonul b -> nonul (firstn n b).
Proof. intros H. rewrite <- (firstn_skipn n b) in H. now apply Forall_app in H. Qed.
Lemma nonul_skipn n b : nonul b -> nonul (skipn n b).
Proof. intros H. rewrite <- (firstn_skipn n b) in H. now apply Forall_app in H. Qed.

Lemma vrep_len {A} (v : vec A) l : vrep v l -> len v = length l.
Proof. intros (? & ? & ? & ?); auto. Qed.

Lemma push_all_ok s : forall v l, vrep v l -> exists v', push_all v s = Ok v' /\ vrep v' (l ++ s).
Proof.
  induction s; intros v l R; cbn.
  - rewrite app_nil_r. eauto.
  - destruct (vpush_ok v l a R) as (v1 & -> & R1). cbn.
    destruct (IHs _ _ R1) as (v2 & E & R2). exists v2. split; auto.
    now rewrite <- app_assoc in R2.
Qed.

Lemma snew_ok s : exists v, snew s = Ok v /\ shold v (cstr s).
Proof.
  unfold snew. destruct (push_all_ok (cstr s) vnew [] vrep_new) as (v & -> & R). cbn.
  destruct (vpush_ok _ _ 0%N R) as (v' & -> & R'). exists v'. split; auto.
  split; auto using cstr_nonul.
Qed.

Lemma shold_len v b : shold v b -> len v = length b + 1.
Proof. intros [R _]. rewrite (vrep_len _ _ R), app_length. reflexivity. Qed.
Lemma slength_ok v b : shold v b -> slength v = length b.
Proof.
  intros H. unfold slength. rewrite (shold_len _ _ H). destruct (Nat.eqb_spec (length b + 1) 0); lia.
Qed.

Lemma drop_nul_ok v b : shold v b -> vrep (drop_nul v) b.
Proof.
  intros [R _]. destruct (vpop_core _ _ _ R) as (_ & R' & Z). unfold drop_nul.
  destruct (Nat.ltb_spec 0 (len v)); [auto|lia].
Qed.

Lemma cread_map b tl : nonul b -> cread (map Some (b ++ [0%N]) ++ tl) = Ok b.
Proof.
  induction 1; cbn; auto. destruct (N.eqb_spec x 0); [easy|]. now rewrite IHForall.
Qed.
Lemma cread_ok v b : shold v b -> cread (data v) = Ok b.
Proof. intros [(tl & E & _) NN]. rewrite E. now apply cread_map. Qed.

Lemma sappend_loop_ok o m : vrep o m -> forall k i v l, vrep v l -> i + k = length m ->
  exists v', sappend_loop v o i k = Ok v' /\ vrep v' (l ++ skipn i m).
Proof.
  intros Ro. induction k; intros i v l R E; cbn.
  - exists v. rewrite skipn_all2 by lia. now rewrite app_nil_r.
  - destruct (nth_error_lt m i) as [c Ec]; [lia|].
    rewrite (vget_ok _ _ _ _ Ro Ec). cbn.
    destruct (vpush_ok v l c R) as (v1 & -> & R1). cbn.
    destruct (IHk (i + 1) v1 _ R1) as (v2 & E2 & R2); [lia|].
    exists v2. split; auto. rewrite (skipn_cons _ _ _ Ec). now rewrite <- app_assoc in R2.
Qed.

Lemma sappend_ok v a o b : shold v a -> shold o b ->
  exists v', sappend v o = Ok v' /\ shold v' (a ++ b).
Proof.
  intros Hv Ho. unfold sappend.
  destruct (sappend_loop_ok o (b ++ [0%N]) (proj1 Ho) (len o) 0 _ _ (drop_nul_ok _ _ Hv))
    as (v' & -> & R).
  - rewrite (shold_len _ _ Ho), app_length. reflexivity.
  - exists v'. split; auto. split.
    + cbn in R. now rewrite <- app_assoc.
    + apply nonul_app; [apply Hv|apply Ho].
Qed.

Lemma sappend_c_ok v a s : shold v a ->
  exists v', sappend_c v s = Ok v' /\ shold v' (a ++ cstr s).
Proof.
  intros H. unfold sappend_c.
  destruct (push_all_ok (cstr s) _ _ (drop_nul_ok _ _ H)) as (v1 & -> & R). cbn.
  destruct (vpush_ok _ _ 0%N R) as (v' & -> & R'). exists v'. split; auto.
  split; auto. apply nonul_app; [apply H|apply cstr_nonul].
Qed.

Lemma sadd_ok v a o b : shold v a -> shold o b ->
  exists v', sadd v o = Ok v' /\ shold v' (a ++ b).
Proof.
  intros Hv Ho. unfold sadd. rewrite (cread_ok _ _ Hv). cbn.
  destruct (snew_ok a) as (n & -> & Hn). cbn. rewrite cstr_id in Hn by apply Hv.
  now apply sappend_ok.
Qed.

Lemma sget v b i c : shold v b -> nth_error b i = Some c -> vget v i = Ok c.
Proof.
  intros [R _] E. eapply vget_ok; eauto. rewrite nth_error_app1; auto.
  apply nth_error_Some. congruence.
Qed.

Lemma vgetN_ok (v : str) l i c : vrep v l -> nth_error l (N.to_nat i) = Some c -> vgetN v i = Ok c.
Proof.
  intros R E. unfold vgetN. rewrite (vrep_len _ _ R).
  assert (N.to_nat i < length l) by (apply nth_error_Some; congruence).
  destruct (N.leb_spec (N.of_nat (length l)) i); [lia|].
  destruct R as (tl & Ed & _). rewrite Ed. now apply bget_map_eq.
Qed.

Lemma ssub_loop_ok v l start n : vrep v l ->
  (start + n <= N.of_nat (length l))%N -> (N.of_nat (length l) < 2 ^ 64)%N ->
  forall k f i out m, k = N.to_nat (n - i) -> (i <= n)%N -> k < f -> vrep out m ->
  exists out', ssub_loop f out v start n i = Ok out' /\
    vrep out' (m ++ firstn k (skipn (N.to_nat (start + i)) l)).
Proof.
  intros R Hn Hl. induction k; intros f i out m Ek Hi Hf Ro.
  - destruct f; [lia|]. cbn [ssub_loop]. destruct (N.ltb_spec i n); [lia|].
    exists out. rewrite firstn_O, app_nil_r. auto.
  - destruct f; [lia|]. cbn [ssub_loop]. destruct (N.ltb_spec i n); [|lia].
    rewrite N.mod_small by lia.
    destruct (nth_error_lt l (N.to_nat (start + i))) as [c Ec]; [lia|].
    rewrite (vgetN_ok _ _ _ _ R Ec). cbn [bind].
    destruct (vpush_ok out m c Ro) as (o1 & -> & R1). cbn [bind].
    destruct (IHk f (i + 1)%N o1 _ ltac:(lia) ltac:(lia) ltac:(lia) R1) as (o2 & E2 & R2).
    exists o2. split; auto. rewrite (skipn_cons _ _ _ Ec). cbn [firstn].
    rewrite <- app_assoc in R2. cbn [app] in R2.
    now replace (N.to_nat (start + i) + 1) with (N.to_nat (start + (i + 1))) by lia.
Qed.

Lemma ssub_loop_panic (v : str) l start n : vrep v l ->
  (2 ^ 64 <= start + n)%N -> (start < 2 ^ 64)%N -> (N.of_nat (length l) < 2 ^ 64)%N ->
  forall k f i (out : str) m, k = length l - N.to_nat (start + i) -> k < f -> vrep out m ->
  (i = 0 \/ start + i <= N.of_nat (length l))%N ->
  ssub_loop f out v start n i = Panic.
Proof.
  intros R Hn Hs Hl. induction k; intros f i out m Ek Hf Ro Hi; (destruct f; [lia|]);
    cbn [ssub_loop]; (destruct (N.ltb_spec i n); [|lia]).
  - rewrite N.mod_small by lia. unfold vgetN. rewrite (vrep_len _ _ R).
    destruct (N.leb_spec (N.of_nat (length l)) (start + i)); [reflexivity|lia].
  - rewrite N.mod_small by lia.
    destruct (nth_error_lt l (N.to_nat (start + i))) as [c Ec]; [lia|].
    rewrite (vgetN_ok _ _ _ _ R Ec). cbn [bind].
    destruct (vpush_ok out m c Ro) as (o1 & -> & R1). cbn [bind].
    eapply IHk; eauto; lia.
Qed.


Lemma ssubstring_ok v b start n : shold v b -> short b ->
  (start + n <= N.of_nat (length b))%N ->
  exists v', ssubstring v start n = Ok v' /\
    shold v' (firstn (N.to_nat n) (skipn (N.to_nat start) b)).
Proof.
  intros H Hb Hn. unfold ssubstring, short in *. rewrite (slength_ok _ _ H).
  rewrite N.mod_small by lia.
  destruct (N.ltb_spec (N.of_nat (length b)) (start + n)); [lia|].
  destruct (ssub_loop_ok v _ start n (proj1 H)) with (k := N.to_nat n) (f := len v + 2) (i := 0%N)
    (out := @vnew N) (m := @nil N) as (o & -> & R).
  - rewrite app_length; cbn; lia.
  - rewrite app_length; cbn; lia.
  - lia.
  - lia.
  - rewrite (shold_len _ _ H). lia.
  - apply vrep_new.
  - cbn [bind]. destruct (vpush_ok _ _ 0%N R) as (v' & -> & R'). exists v'. split; auto.
    split; [|now apply nonul_firstn, nonul_skipn, H].
    rewrite N.add_0_r in R'. cbn [app] in R'.
    rewrite skipn_app in R'. rewrite firstn_app in R'.
    replace (N.to_nat n - length (skipn (N.to_nat start) b)) with 0 in R'
      by (rewrite skipn_length; lia).
    now rewrite firstn_O, app_nil_r in R'.
Qed.

Lemma ssubstring_panic v b start n : shold v b -> short b ->
  (start < 2 ^ 64)%N -> (n < 2 ^ 64)%N -> (N.of_nat (length b) < start + n)%N ->
  ssubstring v start n = Panic.
Proof.
  intros H Hb H1 H2 Hn. unfold ssubstring, short in *. rewrite (slength_ok _ _ H).
  destruct (N.ltb_spec (N.of_nat (length b)) ((start + n) mod 2 ^ 64)); [reflexivity|].
  assert (2 ^ 64 <= start + n)%N.
  { destruct (N.ltb_spec (start + n) (2 ^ 64)); [|auto]. rewrite N.mod_small in H0 by auto. lia. }
  rewrite ssub_loop_panic with (l := b ++ [0%N]) (k := length (b ++ [0%N]) - N.to_nat (start + 0))
    (m := @nil N); auto.
  - apply H.
  - rewrite app_length; cbn; lia.
  - rewrite (shold_len _ _ H), app_length; cbn; lia.
  - apply vrep_new.
Qed.

Lemma substr_nat v b i n : shold v b -> short b -> i + n <= length b ->
  exists v', ssubstring v (N.of_nat i) (N.of_nat n) = Ok v' /\ shold v' (firstn n (skipn i b)).
Proof.
  intros H Hb Hn. destruct (ssubstring_ok v b (N.of_nat i) (N.of_nat n) H Hb) as (v' & E & R); [lia|].
  rewrite !Nat2N.id in R. eauto.
Qed.

Lemma sfind_loop_ok v b c : shold v b -> forall k i, i + k = length b ->
  sfind_loop v c i k = Ok (option_map (Nat.add i) (index_of c (skipn i b))).
Proof.
  intros H. induction k; intros i E; cbn [sfind_loop].
  - rewrite skipn_all2 by lia. reflexivity.
  - destruct (nth_error_lt b i) as [x Ex]; [lia|].
    rewrite (sget _ _ _ _ H Ex). cbn [bind]. rewrite (skipn_cons _ _ _ Ex). cbn [index_of].
    destruct (N.eqb_spec x c); cbn [option_map]. { now rewrite Nat.add_0_r. }
    rewrite IHk by lia. f_equal. destruct (index_of c (skipn (i + 1) b)); cbn; auto. f_equal. lia.
Qed.
Lemma sfind_ok v b c : shold v b -> sfind v c = Ok (index_of c b).
Proof.
  intros H. unfold sfind. rewrite (sfind_loop_ok _ _ _ H) by (rewrite (slength_ok _ _ H); lia).
  cbn [skipn]. now destruct (index_of c b).
Qed.

Lemma beq_firstn_prefix p a : length p <= length a -> beq_bytes (firstn (length p) a) p = is_prefix p a.
Proof.
  revert a; induction p; intros a0 H; destruct a0; cbn in *; auto; try lia.
  rewrite IHp by lia. now rewrite N.eqb_sym.
Qed.
Lemma is_prefix_short p a : length a < length p -> is_prefix p a = false.
Proof.
  intros H. destruct (is_prefix p a) eqn:E; auto. apply is_prefix_spec in E as [r ->].
  rewrite app_length in H. lia.
Qed.
Lemma sstarts_ok v b p : shold v b -> sstarts_with v p = Ok (is_prefix (cstr p) b).
Proof.
  intros H. unfold sstarts_with. rewrite (slength_ok _ _ H).
  destruct (Nat.ltb_spec (length b) (length (cstr p))).
  - now rewrite is_prefix_short.
  - rewrite (cread_ok _ _ H). cbn [bind]. now rewrite beq_firstn_prefix.
Qed.

Lemma is_suffix_spec p b : is_suffix p b = true <-> exists r, b = r ++ p.
Proof.
  unfold is_suffix. rewrite is_prefix_spec. split; intros [r E].
  - exists (rev r). apply (f_equal (@rev N)) in E. now rewrite rev_app_distr, !rev_involutive in E.
  - exists (rev r). now rewrite E, rev_app_distr.
Qed.

Lemma sends_ok v b p : shold v b -> sends_with v p = Ok (is_suffix (cstr p) b).
Proof.
  intros H. unfold sends_with. rewrite (slength_ok _ _ H).
  destruct (Nat.ltb_spec (length b) (length (cstr p))).
  - unfold is_suffix. rewrite is_prefix_short; auto. now rewrite !rev_length.
  - set (k := length b - length (cstr p)).
    assert (E : cread (skipn k (data v)) = Ok (skipn k b)).
    { destruct H as [(tl & E & _) NN]. rewrite E, skipn_app.
      rewrite map_length. replace (k - length (b ++ [0%N])) with 0 by (rewrite app_length; lia).
      rewrite <- map_skipn || rewrite skipn_map. rewrite skipn_O.
      rewrite skipn_app. replace (k - length b) with 0 by lia. rewrite skipn_O.
      apply cread_map. now apply nonul_skipn. }
    rewrite E. cbn [bind]. f_equal.
    destruct (beq_bytes_spec (skipn k b) (cstr p)) as [Eq|Ne].
    + symmetry. apply is_suffix_spec. exists (firstn k b). now rewrite <- Eq, firstn_skipn.
    + destruct (is_suffix (cstr p) b) eqn:S; auto. apply is_suffix_spec in S as [r Er].
      exfalso. apply Ne. rewrite Er. replace k with (length r).
      2:{ unfold k. rewrite Er at 1. rewrite app_length. lia. }
      rewrite skipn_app, skipn_all, Nat.sub_diag. reflexivity.
Qed.

(** split *)
Lemma fields_nonempty d b : exists p r, fields d b = p :: r.
Proof.
  induction b; cbn; eauto. destruct (N.eqb_spec a d); eauto.
  destruct IHb as (p & r & ->). eauto.
Qed.

Lemma ssplit_loop_ok v b d : shold v b -> short b -> forall k start i,
  start <= i -> i + k = length b ->
  exists ps, ssplit_loop v d start i k = Ok ps /\
    Forall2 shold ps (match fields d (skipn i b) with
                      | p :: r => (firstn (i - start) (skipn start b) ++ p) :: r
                      | [] => [] end).
Proof.
  intros H Hb. induction k; intros start i Hs E; cbn [ssplit_loop].
  - rewrite (slength_ok _ _ H). destruct (Nat.leb_spec start (length b)); [|lia].
    destruct (substr_nat v b start (length b - start) H Hb) as (v' & -> & R); [lia|].
    cbn [bind]. eexists; split; [reflexivity|]. rewrite (@skipn_all2 _ i b) by lia.
    cbn [fields]. constructor; [|constructor]. rewrite app_nil_r.
    now replace (i - start) with (length b - start) by lia.
  - destruct (nth_error_lt b i) as [c Ec]; [lia|].
    rewrite (sget _ _ _ _ H Ec). cbn [bind]. rewrite (skipn_cons _ _ _ Ec). cbn [fields].
    destruct (N.eqb_spec c d) as [->|Nd].
    + destruct (substr_nat v b start (i - start) H Hb) as (v' & -> & R); [lia|]. cbn [bind].
      destruct (IHk (i + 1) (i + 1)) as (ps & -> & F); [lia|lia|]. cbn [bind].
      eexists; split; [reflexivity|]. constructor. { now rewrite app_nil_r. }
      destruct (fields_nonempty d (skipn (i + 1) b)) as (p & r & Ef). rewrite Ef in *.
      rewrite Nat.sub_diag in F. exact F.
    + destruct (IHk start (i + 1)) as (ps & -> & F); [lia|lia|].
      eexists; split; [reflexivity|].
      destruct (fields_nonempty d (skipn (i + 1) b)) as (p & r & Ef). rewrite Ef in *.
      replace (firstn (i - start) (skipn start b) ++ c :: p)
        with (firstn (i + 1 - start) (skipn start b) ++ p); auto.
      replace (i + 1 - start) with ((i - start) + 1) by lia.
      replace (firstn (i - start + 1) (skipn start b)) with (firstn (i - start) (skipn start b) ++ [c]).
      { now rewrite <- app_assoc. }
      assert (Ex : nth_error (skipn start b) (i - start) = Some c).
      { rewrite nth_error_skipn. now replace (start + (i - start)) with i by lia. }
      revert Ex. generalize (skipn start b) as l. generalize (i - start) as m. clear.
      induction m; intros l E; destruct l; cbn in *; try discriminate; try congruence.
      f_equal. now apply IHm.
Qed.

Lemma ssplit_ok v b d : shold v b -> short b ->
  exists ps, ssplit v d = Ok ps /\ Forall2 shold ps (match b with [] => [] | _ => fields d b end).
Proof.
  intros H Hb. unfold ssplit. rewrite (slength_ok _ _ H).
  destruct b as [|c b]; cbn [length Nat.eqb]. { eauto. }
  destruct (ssplit_loop_ok v (c :: b) d H Hb (S (length b)) 0 0) as (ps & -> & F); auto.
  exists ps. split; auto. cbn [skipn Nat.sub firstn app] in F.
  now destruct (fields d (c :: b)).
Qed.

Lemma fields_join d b : join d (fields d b) = b.
Proof.
  induction b; cbn; auto. destruct (fields_nonempty d b) as (p & r & E). rewrite E in *.
  destruct (N.eqb_spec a d); subst; cbn in *.
  - reflexivity.
  - destruct r; cbn in *; congruence.
Qed.
Lemma fields_clean d b : Forall (fun p => ~ In d p) (fields d b).
Proof.
  induction b; cbn. { repeat constructor; auto. }
  destruct (fields_nonempty d b) as (p & r & E). rewrite E in *.
  destruct (N.eqb_spec a d); subst.
  - constructor; auto.
  - inversion IHb; subst. constructor; auto. intros [->|]; auto.
Qed.

(** trim *)
Lemma trim_char_spec c : reflect (blank c) (trim_char c).
Proof.
  apply iff_reflect. unfold trim_char, blank. change (ch " ") with 32%N. cbn [In].
  destruct (N.eqb_spec c 32), (N.eqb_spec c 9), (N.eqb_spec c 10), (N.eqb_spec c 13);
    cbn [orb]; intuition congruence.
Qed.

Lemma firstn_S_nth {A} (l : list A) i c : nth_error l i = Some c -> firstn (i + 1) l = firstn i l ++ [c].
Proof.
  revert i; induction l; intros i E; destruct i; cbn in *; try discriminate; try congruence.
  f_equal. auto.
Qed.

Lemma trim_start_ok v b : shold v b -> forall k i, i + k = length b ->
  Forall blank (firstn i b) ->
  exists j, trim_start v i k = Ok j /\ i <= j <= length b /\ Forall blank (firstn j b) /\
    (j < length b -> exists c, nth_error b j = Some c /\ ~ blank c).
Proof.
  intros H. induction k; intros i E F; cbn [trim_start].
  - exists i. splits; auto; lia.
  - destruct (nth_error_lt b i) as [c Ec]; [lia|].
    rewrite (sget _ _ _ _ H Ec). cbn [bind]. destruct (trim_char_spec c).
    + destruct (IHk (i + 1)) as (j & Ej & L & Fj & N); [lia| |].
      * rewrite (firstn_S_nth _ _ _ Ec). apply Forall_app; auto.
      * exists j. splits; auto; lia.
    + exists i. splits; auto; try lia. eauto.
Qed.

Lemma trim_end_ok v b start : shold v b -> forall k stop, start + k = stop -> stop <= length b ->
  Forall blank (skipn stop b) ->
  exists j, trim_end v stop k = Ok j /\ start <= j <= stop /\ Forall blank (skipn j b) /\
    (start < j -> exists c, nth_error b (j - 1) = Some c /\ ~ blank c).
Proof.
  intros H. induction k; intros stop E L F; cbn [trim_end].
  - exists stop. splits; auto; lia.
  - destruct (nth_error_lt b (stop - 1)) as [c Ec]; [lia|].
    rewrite (sget _ _ _ _ H Ec). cbn [bind]. destruct (trim_char_spec c).
    + destruct (IHk (stop - 1)) as (j & Ej & Lj & Fj & N); [lia|lia| |].
      * rewrite (skipn_cons _ _ _ Ec). replace (stop - 1 + 1) with stop by lia. auto.
      * exists j. splits; auto; lia.
    + exists stop. splits; auto; try lia. eauto.
Qed.

Lemma strim_ok v b : shold v b -> short b ->
  exists v' m, strim v = Ok v' /\ shold v' m /\ Trimmed b m.
Proof.
  intros H Hb. unfold strim. rewrite (slength_ok _ _ H).
  destruct (trim_start_ok v b H (length b) 0) as (s & -> & Ls & Fs & Ns); [lia|constructor|].
  cbn [bind]. destruct (Nat.eqb_spec s (length b)) as [->|Ne].
  - destruct (snew_ok []) as (v' & -> & R). exists v', []. splits; auto.
    exists b, []. rewrite firstn_all in Fs. rewrite app_nil_r. splits; auto.
    + discriminate.
    + intros c m' E. destruct m'; discriminate.
  - destruct Ns as (c & Ec & Nc); [lia|].
    destruct (trim_end_ok v b s H (length b - s) (length b)) as (e & -> & Le & Fe & Ne');
      [lia|lia|rewrite skipn_all; constructor|].
    cbn [bind].
    assert (s < e).
    { destruct (Nat.eq_dec s e); [|lia]. subst e. exfalso. rewrite (skipn_cons _ _ _ Ec) in Fe.
      inversion Fe; subst; auto. }
    destruct (substr_nat v b s (e - s) H Hb) as (v' & -> & R); [lia|].
    exists v', (firstn (e - s) (skipn s b)). splits; auto.
    exists (firstn s b), (skipn e b). splits; auto.
    + replace (skipn e b) with (skipn (e - s) (skipn s b)).
      2:{ rewrite skipn_skipn'. f_equal. lia. }
      now rewrite !firstn_skipn.
    + intros c0 m' Em. rewrite (skipn_cons _ _ _ Ec) in Em.
      destruct (e - s) eqn:Es; [lia|]. cbn in Em. congruence.
    + intros c0 m' Em. destruct Ne' as (d & Ed & Nd); auto.
      assert (L : length (m' ++ [c0]) = e - s).
      { rewrite <- Em, firstn_length, skipn_length. lia. }
      rewrite app_length in L. cbn in L.
      assert (X : nth_error (firstn (e - s) (skipn s b)) (e - s - 1) = Some d).
      { rewrite nth_error_firstn. destruct (Nat.ltb_spec (e - s - 1) (e - s)); [|lia].
        rewrite nth_error_skipn. now replace (s + (e - s - 1)) with (e - 1) by lia. }
      rewrite Em in X. rewrite nth_error_app2 in X by lia.
      replace (e - s - 1 - length m') with 0 in X by lia. cbn in X. congruence.
Qed.

(** replace *)
Lemma match_at_ok v b : shold v b -> forall t i, i + length t <= length b ->
  match_at v t i = Ok (is_prefix t (skipn i b)).
Proof.
  intros H. induction t; intros i L; cbn [match_at]; auto. cbn in L.
  destruct (nth_error_lt b i) as [c Ec]; [lia|].
  rewrite (sget _ _ _ _ H Ec). cbn [bind]. rewrite (skipn_cons _ _ _ Ec). cbn [is_prefix].
  rewrite (N.eqb_sym a c). destruct (N.eqb_spec c a); cbn [andb]; auto. apply IHt. lia.
Qed.

Lemma sreplace_loop_ok v b t r : shold v b -> t <> [] ->
  forall f i out o, shold out o -> length b - i < f -> i <= length b ->
  exists out' o', sreplace_loop f v t r out i = Ok out' /\ shold out' (o ++ o') /\
    Replaced t (cstr r) (skipn i b) o'.
Proof.
  intros H Ht. induction f; intros i out o Ho Hf Hi; [lia|]. cbn [sreplace_loop].
  rewrite (slength_ok _ _ H). destruct (Nat.ltb_spec i (length b)).
  2:{ exists out, []. rewrite app_nil_r, skipn_all2 by lia. splits; auto. constructor. }
  assert (M : (if i + length t <=? length b then match_at v t i else Ok false)
              = Ok (is_prefix t (skipn i b))).
  { destruct (Nat.leb_spec (i + length t) (length b)).
    - now apply match_at_ok.
    - rewrite is_prefix_short; auto. rewrite skipn_length. lia. }
  rewrite M. cbn [bind]. destruct (is_prefix t (skipn i b)) eqn:P.
  - destruct (snew_ok r) as (rs & -> & Hr). cbn [bind].
    destruct (sappend_ok _ _ _ _ Ho Hr) as (o1 & -> & H1). cbn [bind].
    apply is_prefix_spec in P as [rest Er].
    assert (Lr : length (skipn i b) = length t + length rest) by (now rewrite Er, app_length).
    rewrite skipn_length in Lr.
    assert (Lt : 0 < length t) by (destruct t; [easy|cbn; lia]).
    destruct (IHf (i + length t) o1 _ H1) as (o2 & o' & E2 & H2 & R2); [lia|lia|].
    exists o2, (cstr r ++ o'). splits; auto. { now rewrite <- app_assoc in H2. }
    rewrite <- skipn_skipn', Er, skipn_app, skipn_all, Nat.sub_diag in R2. cbn in R2.
    rewrite Er. now constructor.
  - destruct (nth_error_lt b i) as [c Ec]; [lia|].
    rewrite (sget _ _ _ _ H Ec). cbn [bind].
    destruct (vpush_ok vnew [] c vrep_new) as (v1 & -> & R1). cbn [bind].
    destruct (vpush_ok v1 _ 0%N R1) as (v2 & -> & R2). cbn [bind].
    assert (H2 : shold v2 [c]).
    { split; auto. constructor; auto.
      assert (NN : nonul b) by apply H. unfold nonul in NN. rewrite Forall_forall in NN.
      eapply NN, nth_error_In; eauto. }
    rewrite (cread_ok _ _ H2). cbn [bind].
    destruct (snew_ok [c]) as (cs & -> & Hc). cbn [bind]. rewrite cstr_id in Hc by apply H2.
    destruct (sappend_ok _ _ _ _ Ho Hc) as (o1 & -> & H1). cbn [bind].
    destruct (IHf (i + 1) o1 _ H1) as (o2 & o' & E2 & H3 & R3); [lia|lia|].
    exists o2, (c :: o'). splits; auto. { now rewrite <- app_assoc in H3. }
    rewrite (skipn_cons _ _ _ Ec). constructor; auto.
    intros rest Er. rewrite (skipn_cons _ _ _ Ec) in P. rewrite Er in P.
    assert (is_prefix t (t ++ rest) = true) by (apply is_prefix_spec; eauto). congruence.
Qed.

Lemma sreplace_ok v b t r : shold v b -> short b -> cstr t <> [] ->
  exists v' o, sreplace v t r = Ok v' /\ shold v' o /\ Replaced (cstr t) (cstr r) b o.
Proof.
  intros H Hb Ht. unfold sreplace. destruct (Nat.eqb_spec (length (cstr t)) 0).
  { destruct (cstr t); [easy|discriminate]. }
  destruct (snew_ok []) as (o & -> & Ho). cbn [bind].
  rewrite (slength_ok _ _ H).
  destruct (sreplace_loop_ok v b (cstr t) r H Ht (S (length b)) 0 o [] Ho) as (o' & x & E & R & X);
    [lia|lia|]. exists o', x. splits; auto.
Qed.
Lemma sreplace_empty v b t r : shold v b -> short b -> cstr t = [] ->
  exists v', sreplace v t r = Ok v' /\ shold v' b.
Proof.
  intros H Hb Ht. unfold sreplace. rewrite Ht. cbn [length Nat.eqb]. rewrite (slength_ok _ _ H).
  destruct (ssubstring_ok v b 0 (N.of_nat (length b)) H Hb) as (v' & E & R); [lia|].
  exists v'. split; auto. rewrite Nat2N.id in R. cbn in R. now rewrite firstn_all in R.
Qed.

Lemma Replaced_det t r b o1 o2 : t <> [] -> Replaced t r b o1 -> Replaced t r b o2 -> o1 = o2.
Proof.
  intros Ht H1. revert o2. induction H1; intros o2 H2; inversion H2; subst; auto.
  - destruct t; [easy|discriminate].
  - destruct t; [easy|discriminate].
  - f_equal. apply IHReplaced. apply app_inv_head in H. now subst.
  - exfalso. eapply H0; eauto.
  - exfalso. eapply H; eauto.
  - f_equal. auto.
Qed.

(** UTF-8 *)
Definition seq_len_of (b : N) : nat :=
  if (b <? 192)%N then 1 else if (b <? 224)%N then 2 else if (b <? 240)%N then 3
  else if (b <? 248)%N then 4 else 1.
Lemma seq_len_all : forallb (fun i => utf8_seq_len (N.of_nat i) =? seq_len_of (N.of_nat i)) (seq 0 256) = true.
Proof. vm_compute. reflexivity. Qed.
Lemma seq_len_byte b : (b < 256)%N -> utf8_seq_len b = seq_len_of b.
Proof.
  intros H. pose proof seq_len_all as A. rewrite forallb_forall in A.
  specialize (A (N.to_nat b)). rewrite N2Nat.id in A. apply Nat.eqb_eq, A.
  apply in_seq. lia.
Qed.
Lemma seq_len_pos b : 1 <= utf8_seq_len b.
Proof. unfold utf8_seq_len. repeat destruct (_ =? _)%N; lia. Qed.

Lemma encode_head c : (c < 0x110000)%N ->
  exists h t, utf8_encode c = h :: t /\ utf8_seq_len h = S (length t).
Proof.
  intros H. unfold utf8_encode.
  destruct (N.ltb_spec c 0x80); [|destruct (N.ltb_spec c 0x800); [|destruct (N.ltb_spec c 0x10000)]];
    do 2 eexists; (split; [reflexivity|]); rewrite seq_len_byte by lia; cbn [length]; unfold seq_len_of;
    repeat match goal with |- context [(?a <? ?b)%N] => destruct (N.ltb_spec a b) end; lia.
Qed.

Lemma utf8_text_cons c cs : utf8_text (c :: cs) = utf8_encode c ++ utf8_text cs.
Proof. reflexivity. Qed.
Lemma utf8_text_app a b : utf8_text (a ++ b) = utf8_text a ++ utf8_text b.
Proof. unfold utf8_text. now rewrite map_app, concat_app. Qed.

Section Utf8.
  Variables (v : str) (cs : list N).
  Hypothesis H : shold v (utf8_text cs).
  Hypothesis Hs : short (utf8_text cs).
  Hypothesis CP : Forall code_point cs.

  (** the byte position after [done] code points *)
  Lemma at_boundary done c rest : cs = done ++ c :: rest ->
    exists h t, utf8_encode c = h :: t /\ utf8_seq_len h = length (utf8_encode c) /\
      vget v (length (utf8_text done)) = Ok h /\
      length (utf8_text done) < slength v /\
      length (utf8_text done) + utf8_seq_len h = length (utf8_text (done ++ [c])).
  Proof.
    intros E. assert (Hc : code_point c).
    { rewrite Forall_forall in CP. apply CP. rewrite E. apply in_or_app. right; left; auto. }
    destruct (encode_head c) as (h & t & Ee & El); [destruct Hc; auto|].
    exists h, t. splits; auto.
    - now rewrite Ee.
    - apply (sget v (utf8_text cs)); auto.
      rewrite E, utf8_text_app, nth_error_app2, Nat.sub_diag by lia. now rewrite utf8_text_cons, Ee.
    - rewrite (slength_ok _ _ H), E, utf8_text_app, app_length, utf8_text_cons, Ee. cbn. lia.
    - rewrite utf8_text_app, app_length. unfold utf8_text at 3. cbn [map concat].
      rewrite app_nil_r, Ee. cbn [length]. lia.
  Qed.

  Lemma text_length_ge l : Forall code_point l -> length l <= length (utf8_text l).
  Proof.
    induction 1; auto. rewrite utf8_text_cons, app_length. cbn [length].
    destruct (encode_head x) as (h & t & Ee & El); [destruct H0; auto|]. rewrite Ee. cbn. lia.
  Qed.

  Lemma utf8_len_loop_ok rest : forall done f, cs = done ++ rest -> length rest < f ->
    utf8_len_loop f v (length (utf8_text done)) (length done) = Ok (length cs).
  Proof.
    induction rest as [|c rest IH]; intros done f E Hf; (destruct f; [lia|]); cbn [utf8_len_loop].
    - rewrite (slength_ok _ _ H), E, app_nil_r, Nat.ltb_irrefl. reflexivity.
    - destruct (at_boundary done c rest E) as (h & t & Ee & El & G & L & N).
      destruct (Nat.ltb_spec (length (utf8_text done)) (slength v)); [|lia].
      rewrite G. cbn [bind]. rewrite N. replace (length done + 1) with (length (done ++ [c])).
      2:{ rewrite app_length. reflexivity. }
      apply IH; [|cbn in Hf; lia]. now rewrite <- app_assoc.
  Qed.
  Lemma sutf8_len_ok : sutf8_len v = Ok (length cs).
  Proof.
    unfold sutf8_len. apply (utf8_len_loop_ok cs []); auto.
    rewrite (slength_ok _ _ H). pose proof (text_length_ge cs CP). lia.
  Qed.

  Lemma utf8_at_loop_hit c rest : forall done todo f, cs = (done ++ todo) ++ c :: rest ->
    length todo < f ->
    exists v', utf8_at_loop f v (length (done ++ todo)) (length (utf8_text done)) (length done) = Ok v'
      /\ shold v' (utf8_encode c).
  Proof.
    intros done todo. revert done. induction todo as [|d todo IH]; intros done f E Hf;
      (destruct f; [lia|]); cbn [utf8_at_loop].
    - rewrite app_nil_r in *. destruct (at_boundary done c rest E) as (h & t & Ee & El & G & L & N).
      destruct (Nat.ltb_spec (length (utf8_text done)) (slength v)); [|lia].
      rewrite G. cbn [bind]. rewrite Nat.eqb_refl, El.
      destruct (substr_nat v _ (length (utf8_text done)) (length (utf8_encode c)) H Hs) as (v' & Es & R).
      + rewrite E, utf8_text_app, utf8_text_cons, !app_length. lia.
      + exists v'. split; auto. rewrite E, utf8_text_app, skipn_app, skipn_all, Nat.sub_diag in R.
        cbn [app skipn] in R. rewrite utf8_text_cons, firstn_app, firstn_all, Nat.sub_diag in R.
        now rewrite firstn_O, app_nil_r in R.
    - rewrite <- app_assoc in E. cbn [app] in E.
      destruct (at_boundary done d (todo ++ c :: rest)) as (h & t & Ee & El & G & L & N).
      { rewrite E. reflexivity. }
      destruct (Nat.ltb_spec (length (utf8_text done)) (slength v)); [|lia].
      rewrite G. cbn [bind]. rewrite app_length. cbn [length].
      destruct (Nat.eqb_spec (length done) (length done + S (length todo))); [lia|].
      rewrite N. replace (length done + 1) with (length (done ++ [d])).
      2:{ rewrite app_length. reflexivity. }
      replace (length done + S (length todo)) with (length ((done ++ [d]) ++ todo)).
      2:{ rewrite !app_length. cbn. lia. }
      apply IH; [|cbn in Hf; lia]. rewrite <- !app_assoc. cbn. rewrite E. reflexivity.
  Qed.

  Lemma utf8_at_loop_miss idx : length cs <= idx -> forall rest done f, cs = done ++ rest ->
    length rest < f ->
    utf8_at_loop f v idx (length (utf8_text done)) (length done) = snew [].
  Proof.
    intros Hi. induction rest as [|c rest IH]; intros done f E Hf; (destruct f; [lia|]);
      cbn [utf8_at_loop].
    - rewrite (slength_ok _ _ H), E, app_nil_r, Nat.ltb_irrefl. reflexivity.
    - destruct (at_boundary done c rest E) as (h & t & Ee & El & G & L & N).
      destruct (Nat.ltb_spec (length (utf8_text done)) (slength v)); [|lia].
      rewrite G. cbn [bind].
      assert (length done < length cs) by (rewrite E, app_length; cbn; lia).
      destruct (Nat.eqb_spec (length done) idx); [lia|].
      rewrite N. replace (length done + 1) with (length (done ++ [c])).
      2:{ rewrite app_length. reflexivity. }
      apply IH; [|cbn in Hf; lia]. now rewrite <- app_assoc.
  Qed.

  Lemma sutf8_at_ok idx : exists v', sutf8_at v idx = Ok v' /\
    shold v' (match nth_error cs idx with Some c => utf8_encode c | None => [] end).
  Proof.
    unfold sutf8_at. rewrite (slength_ok _ _ H). pose proof (text_length_ge cs CP).
    destruct (nth_error cs idx) as [c|] eqn:E.
    - destruct (nth_error_split _ _ E) as (l1 & l2 & Ecs & L).
      destruct (utf8_at_loop_hit c l2 [] l1 (S (length (utf8_text cs)))) as (v' & Ev & R).
      + exact Ecs.
      + rewrite Ecs, app_length in H0. cbn in H0. rewrite Ecs. lia.
      + exists v'. rewrite <- L. split; auto.
    - apply nth_error_None in E. destruct (snew_ok []) as (v' & Ev & R).
      exists v'. split; [|exact R]. rewrite <- Ev.
      apply (utf8_at_loop_miss idx E cs [] _); auto. lia.
  Qed.

  (** utf8_substr: collecting *)
  Lemma utf8_collect start n rest : forall pre done f,
    cs = (pre ++ done) ++ rest -> length rest < f -> length done <= n ->
    utf8_substr_loop f v start n (length (utf8_text (pre ++ done))) (length done)
      (Some (length (utf8_text pre))) (length (utf8_text done))
    = Ok (Some (length (utf8_text pre), length (utf8_text (done ++ firstn (n - length done) rest)))).
  Proof.
    induction rest as [|c rest IH]; intros pre done f E Hf Hn; (destruct f; [lia|]);
      cbn [utf8_substr_loop].
    - rewrite (slength_ok _ _ H), E, app_nil_r, Nat.ltb_irrefl, firstn_nil, app_nil_r. reflexivity.
    - destruct (at_boundary (pre ++ done) c rest E) as (h & t & Ee & El & G & L & N).
      destruct (Nat.ltb_spec (length (utf8_text (pre ++ done))) (slength v)); [|lia].
      destruct (Nat.ltb_spec (length done) n).
      + rewrite G. cbn [bind]. rewrite N. 
        replace (length (utf8_text done) + utf8_seq_len h) with (length (utf8_text (done ++ [c]))).
        2:{ rewrite utf8_text_app, app_length, El. unfold utf8_text at 2. cbn. now rewrite app_nil_r. }
        replace (length done + 1) with (length (done ++ [c])) by (rewrite app_length; reflexivity).
        rewrite <- app_assoc. rewrite IH.
        * replace (n - length done) with (S (n - length (done ++ [c]))).
          2:{ rewrite app_length; cbn; lia. }
          cbn [firstn]. now rewrite <- app_assoc.
        * now rewrite E, <- !app_assoc.
        * cbn in Hf; lia.
        * rewrite app_length; cbn; lia.
      + replace (n - length done) with 0 by lia. rewrite firstn_O, app_nil_r. reflexivity.
  Qed.

  Lemma utf8_seek start n rest : 0 < n -> forall done f,
    cs = done ++ rest -> length rest < f -> length done <= start ->
    utf8_substr_loop f v start n (length (utf8_text done)) (length done) None 0
    = Ok (if start <? length cs then
            Some (length (utf8_text (firstn start cs)),
                  length (utf8_text (firstn n (skipn start cs))))
          else None).
  Proof.
    intros Hn. induction rest as [|c rest IH]; intros done f E Hf Hst; (destruct f; [lia|]);
      cbn [utf8_substr_loop].
    - rewrite (slength_ok _ _ H). rewrite app_nil_r in E. subst done.
      rewrite Nat.ltb_irrefl. destruct (Nat.ltb_spec start (length cs)); [lia|reflexivity].
    - destruct (at_boundary done c rest E) as (h & t & Ee & El & G & L & N).
      destruct (Nat.ltb_spec (length (utf8_text done)) (slength v)); [|lia].
      destruct (Nat.eqb_spec (length done) start) as [Es|Ns].
      + destruct (Nat.ltb_spec 0 n); [|lia]. rewrite G. cbn [bind]. rewrite N.
        replace (0 + utf8_seq_len h) with (length (utf8_text [c])).
        2:{ rewrite El. unfold utf8_text. cbn. now rewrite app_nil_r. }
        change 1 with (length [c]). rewrite (utf8_collect start n rest done [c] f).
        * assert (start < length cs) by (rewrite E, app_length; cbn; lia).
          destruct (Nat.ltb_spec start (length cs)); [|lia]. do 2 f_equal. 
          rewrite E, <- Es, firstn_app, firstn_all, Nat.sub_diag, firstn_O, app_nil_r.
          rewrite skipn_app, skipn_all, Nat.sub_diag. cbn [app skipn length].
          destruct n; [lia|]. cbn [firstn Nat.sub]. now rewrite Nat.sub_0_r.
        * rewrite E, <- app_assoc. reflexivity.
        * cbn in Hf. lia.
        * cbn. lia.
      + rewrite G. cbn [bind]. rewrite N.
        replace (length done + 1) with (length (done ++ [c])) by (rewrite app_length; reflexivity).
        apply IH; [now rewrite <- app_assoc|cbn in Hf; lia|rewrite app_length; cbn; lia].
  Qed.

  Lemma sutf8_substr_ok start n : exists v', sutf8_substr v start n = Ok v' /\
    shold v' (utf8_text (firstn n (skipn start cs))).
  Proof.
    unfold sutf8_substr. destruct (Nat.eqb_spec n 0) as [->|Hn].
    { destruct (snew_ok []) as (v' & -> & R). exists v'. split; auto. }
    rewrite (slength_ok _ _ H). pose proof (text_length_ge cs CP).
    change 0 with (length (utf8_text [])) at 1. change 0 with (length (@nil N)) at 2.
    rewrite (utf8_seek start n cs); [|lia|reflexivity|lia|cbn; lia]. cbn [bind].
    destruct (Nat.ltb_spec start (length cs)).
    - set (m := firstn n (skipn start cs)).
      assert (E : utf8_text cs = utf8_text (firstn start cs) ++ utf8_text m
                                 ++ utf8_text (skipn n (skipn start cs))).
      { unfold m. rewrite <- !utf8_text_app. now rewrite !firstn_skipn. }
      destruct (substr_nat v _ (length (utf8_text (firstn start cs))) (length (utf8_text m)) H Hs)
        as (v' & -> & R).
      + rewrite E, !app_length. lia.
      + exists v'. split; auto. rewrite E, skipn_app, skipn_all, Nat.sub_diag in R. cbn [app skipn] in R.
        now rewrite firstn_app, firstn_all, Nat.sub_diag, firstn_O, app_nil_r in R.
    - destruct (snew_ok []) as (v' & -> & R). exists v'. split; auto.
      rewrite (@skipn_all2 _ start cs) by lia. now rewrite firstn_nil.
  Qed.
End Utf8.

(** utf8_len on arbitrary bytes *)
Lemma utf8_len_total v b : shold v b -> forall f i count,
  length b - i < f -> exists n, utf8_len_loop f v i count = Ok n /\ count <= n <= count + (length b - i).
Proof.
  intros H. induction f; intros i count Hf; [lia|]. cbn [utf8_len_loop].
  rewrite (slength_ok _ _ H). destruct (Nat.ltb_spec i (length b)).
  - destruct (nth_error_lt b i) as [c Ec]; [lia|]. rewrite (sget _ _ _ _ H Ec). cbn [bind].
    pose proof (seq_len_pos c). destruct (IHf (i + utf8_seq_len c) (count + 1)) as (n & E & L); [lia|].
    exists n. split; auto. lia.
  - exists count. split; auto. lia.
Qed.

(** programs *)
Lemma F2_nth {A B} (R : A -> B -> Prop) st ls i : Forall2 R st ls ->
  match nth_error st i, nth_error ls i with
  | Some v, Some l => R v l
  | None, None => True
  | _, _ => False
  end.
Proof. intros H. revert i. induction H; intros i; destruct i; cbn; auto. apply IHForall2. Qed.
Lemma F2_upd {A B} (R : A -> B -> Prop) st ls i v l : Forall2 R st ls -> R v l ->
  Forall2 R (upd st i v) (upd ls i l).
Proof. intros H X. revert i. induction H; intros i; destruct i; cbn; constructor; auto. Qed.
Lemma F2_upd_l {A B} (R : A -> B -> Prop) st ls i v l : Forall2 R st ls -> R v l ->
  nth_error ls i = Some l -> Forall2 R (upd st i v) ls.
Proof.
  intros H X. revert i. induction H; intros i E; destruct i; cbn in *; try discriminate;
    constructor; auto; congruence.
Qed.

Definition sagree {B} (r : res (list str * B)) (s : option (list bytes * B)) : Prop :=
  match s with
  | None => r = Panic
  | Some (ls, o) => exists st, r = Ok (st, o) /\ Forall2 shold st ls
  end.

Lemma str_step_ok st ls op : Forall2 shold st ls -> Forall short ls ->
  no_self_append op -> usize_args op ->
  sagree (str_step st op) (str_spec_step ls op).
Proof.
  intros H Sh NA US.
  assert (SH : forall i b, nth_error ls i = Some b -> short b).
  { intros i b E. rewrite Forall_forall in Sh. eapply Sh, nth_error_In; eauto. }
  Ltac one i H :=
    let N := fresh "N" in pose proof (F2_nth _ _ _ i H) as N;
    let Ei := fresh "Ei" in
    destruct (nth_error _ i) as [?v|] eqn:?; destruct (nth_error _ i) as [?b|] eqn:Ei; try easy;
    [|cbn; eauto].
  assert (APP : forall vs bs, Forall2 shold vs bs -> Forall2 shold (st ++ vs) (ls ++ bs))
    by (intros; now apply Forall2_app).
  destruct op; cbn [str_step str_spec_step]; unfold smon.
  - destruct (snew_ok s) as (v & -> & R). cbn. eexists; split; [reflexivity|]. auto.
  - pose proof (F2_nth _ _ _ i H) as N1. pose proof (F2_nth _ _ _ j H) as N2. cbn in NA.
    destruct (nth_error st i) as [v|], (nth_error ls i) as [a|]; try easy; [|cbn; eauto].
    destruct (nth_error st j) as [o|], (nth_error ls j) as [b|]; try easy; [|cbn; eauto].
    destruct (Nat.eqb_spec i j); [easy|].
    destruct (sappend_ok _ _ _ _ N1 N2) as (v' & -> & R). cbn. eexists; split; [reflexivity|].
    now apply F2_upd.
  - pose proof (F2_nth _ _ _ i H) as N1.
    destruct (nth_error st i) as [v|], (nth_error ls i) as [a|]; try easy; [|cbn; eauto].
    destruct (sappend_c_ok _ _ s N1) as (v' & -> & R). cbn. eexists; split; [reflexivity|].
    now apply F2_upd.
  - pose proof (F2_nth _ _ _ i H) as N1. pose proof (F2_nth _ _ _ j H) as N2.
    destruct (nth_error st i) as [v|], (nth_error ls i) as [a|]; try easy; [|cbn; eauto].
    destruct (nth_error st j) as [o|], (nth_error ls j) as [b|]; try easy; [|cbn; eauto].
    destruct (sadd_ok _ _ _ _ N1 N2) as (v' & -> & R). cbn. eexists; split; [reflexivity|]. auto.
  - pose proof (F2_nth _ _ _ i H) as N1. pose proof (SH i) as S1. cbn in US.
    destruct (nth_error st i) as [v|], (nth_error ls i) as [a|]; try easy; [|cbn; eauto].
    specialize (S1 _ eq_refl).
    destruct (N.leb_spec (start + n) (N.of_nat (length a))).
    + destruct (ssubstring_ok _ _ start n N1 S1) as (v' & -> & R); auto. cbn.
      eexists; split; [reflexivity|]. auto.
    + cbn. now rewrite (ssubstring_panic _ _ start n N1 S1).
  - pose proof (F2_nth _ _ _ i H) as N1.
    destruct (nth_error st i) as [v|] eqn:Ev, (nth_error ls i) as [a|] eqn:Ea; try easy; [|cbn; eauto].
    unfold sreserve. destruct N1 as [R NN].
    assert (exists v', vgrow_to_fit v (n + 1) = Ok v' /\ vrep v' (a ++ [0%N])) as (v' & -> & R').
    { destruct (Nat.leb_spec (length (a ++ [0%N])) (n + 1)).
      - destruct (vgrow_to_fit_ok _ _ _ R H0) as (v' & E & R' & _). eauto.
      - unfold vgrow_to_fit. destruct R as (tl & E & L & C).
        destruct (Nat.leb_spec (n + 1) (cap v)).
        + exists v. split; auto. exists tl; auto.
        + exfalso. rewrite C, E, app_length, map_length in H1. lia. }
    cbn. eexists; split; [reflexivity|]. eapply F2_upd_l; eauto. split; auto.
  - pose proof (F2_nth _ _ _ i H) as N1.
    destruct (nth_error st i) as [v|], (nth_error ls i) as [a|]; try easy; [|cbn; eauto].
    rewrite (slength_ok _ _ N1). cbn. eauto.
  - pose proof (F2_nth _ _ _ i H) as N1.
    destruct (nth_error st i) as [v|], (nth_error ls i) as [a|]; try easy; [|cbn; eauto].
    rewrite (cread_ok _ _ N1). cbn. eauto.
  - pose proof (F2_nth _ _ _ i H) as N1.
    destruct (nth_error st i) as [v|], (nth_error ls i) as [a|]; try easy; [|cbn; eauto].
    unfold sis_empty. rewrite (slength_ok _ _ N1). cbn. eauto.
  - pose proof (F2_nth _ _ _ i H) as N1. pose proof (F2_nth _ _ _ j H) as N2.
    destruct (nth_error st i) as [v|], (nth_error ls i) as [a|]; try easy; [|cbn; eauto].
    destruct (nth_error st j) as [o|], (nth_error ls j) as [b|]; try easy; [|cbn; eauto].
    unfold s_eq. rewrite (cread_ok _ _ N1), (cread_ok _ _ N2). cbn. eauto.
  - pose proof (F2_nth _ _ _ i H) as N1.
    destruct (nth_error st i) as [v|], (nth_error ls i) as [a|]; try easy; [|cbn; eauto].
    unfold seq_str. rewrite (cread_ok _ _ N1). cbn. eauto.
  - pose proof (F2_nth _ _ _ i H) as N1.
    destruct (nth_error st i) as [v|], (nth_error ls i) as [a|]; try easy; [|cbn; eauto].
    rewrite (sfind_ok _ _ _ N1). cbn. eauto.
  - pose proof (F2_nth _ _ _ i H) as N1.
    destruct (nth_error st i) as [v|], (nth_error ls i) as [a|]; try easy; [|cbn; eauto].
    unfold scontains. rewrite (sfind_ok _ _ _ N1). cbn. eauto.
  - pose proof (F2_nth _ _ _ i H) as N1.
    destruct (nth_error st i) as [v|], (nth_error ls i) as [a|]; try easy; [|cbn; eauto].
    rewrite (sstarts_ok _ _ _ N1). cbn. eauto.
  - pose proof (F2_nth _ _ _ i H) as N1.
    destruct (nth_error st i) as [v|], (nth_error ls i) as [a|]; try easy; [|cbn; eauto].
    rewrite (sends_ok _ _ _ N1). cbn. eauto.
  - pose proof (F2_nth _ _ _ i H) as N1. pose proof (SH i) as S1.
    destruct (nth_error st i) as [v|], (nth_error ls i) as [a|]; try easy; [|cbn; eauto].
    specialize (S1 _ eq_refl).
    destruct (ssplit_ok _ _ d N1 S1) as (ps & -> & F). cbn. eexists; split; [reflexivity|]. auto.
Qed.

Lemma str_run_ok ops : forall st ls, Forall2 shold st ls -> stays_short ls ops ->
  Forall no_self_append ops -> Forall usize_args ops ->
  sagree (str_run st ops) (str_spec_run ls ops).
Proof.
  induction ops; intros st ls H [S1 S2] NA US; cbn [str_run str_spec_run].
  - cbn. eauto.
  - inversion NA; subst. inversion US; subst.
    pose proof (str_step_ok st ls a H S1 H2 H4) as X.
    destruct (str_spec_step ls a) as [[ls' o]|]; cbn in X.
    + destruct X as (st' & -> & H'). cbn [bind]. specialize (IHops _ _ H' S2 H3 H5).
      destruct (str_spec_run ls' ops) as [[ls'' os]|]; cbn in *.
      * destruct IHops as (st'' & -> & ?). cbn. eauto.
      * now rewrite IHops.
    + now rewrite X.
Qed.
