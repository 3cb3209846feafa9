(** Lemmas on comptime blocks. *)
From Verif Require Import Common Lexer_Model Lexer_Spec Lexer_Proofs Lexer_Munch Lexer_Next Lexer_Props Macro_Model Macro_Spec Macro_Proofs.
From Verif Require Import Comptime_Model Comptime_Spec.
Local Open Scope nat_scope.

(** ** The block *)
Lemma skip_ok n : forall l d, lpos l <= length (lsrc l) -> lemit l = false -> 1 <= d ->
  match skip_block n l d with
  | Ok l' => exists ts, Block (lsrc l) (lpos l) d ts (lpos l') /\ lsrc l' = lsrc l /\ lpos l' <= length (lsrc l) /\ lpos l < lpos l'
  | UB => ~ ends_well (lsrc l)
  | Panic => True
  | Fuel => n <= length (lsrc l) - lpos l
  end.
Proof.
  induction n as [|n IH]; intros l d Lp Em D; [cbn; lia|]. cbn [skip_block].
  destruct (lexer_next_fuel l Lp) as [[-> U]|(t & l' & -> & A1 & A2 & A3 & A4 & A5 & _)]; cbn [bind]; auto.
  rewrite Em in A5.
  destruct A5 as [(B1 & _)|(B1 & B2 & B3 & B4 & B5 & B6)]; [rewrite B1; exact Logic.I|].
  assert (K : forall d', 1 <= d' ->
    match skip_block n l' d' with
    | Ok l'0 => exists ts, Block (lsrc l) (tpos t + tlen t) d' ts (lpos l'0) /\ lsrc l'0 = lsrc l /\ lpos l'0 <= length (lsrc l) /\ lpos l < lpos l'0
    | UB => ~ ends_well (lsrc l)
    | Panic => True
    | Fuel => S n <= length (lsrc l) - lpos l
    end).
  { intros d' D'. specialize (IH l' d'). rewrite A1, A2, Em, A3 in IH. specialize (IH ltac:(lia) eq_refl D').
    destruct (skip_block n l' d') as [l''| | |]; auto; [|lia].
    destruct IH as (ts & I1 & I2 & I3 & I4). exists ts. splits; auto. lia. }
  destruct (tk t) eqn:Tk; try contradiction;
    try (destruct (Nat.eqb_spec d 0); [lia|]; specialize (K d D);
         destruct (skip_block n l' d) as [l''| | |]; auto;
         destruct K as (ts & K1 & K2 & K3 & K4); exists (t :: ts); splits; auto;
         apply Block_tok; auto; rewrite Tk; discriminate).
  - cbn [Nat.eqb]. specialize (K (S d) ltac:(lia)).
    destruct (skip_block n l' (S d)) as [l''| | |]; auto.
    destruct K as (ts & K1 & K2 & K3 & K4). exists (t :: ts). splits; auto. apply Block_open; auto.
  - destruct (Nat.eqb_spec (pred d) 0).
    + exists []. rewrite A3. splits; auto; try lia.
      replace d with 1 by lia. destruct (rbrace_one _ _ _ B6 eq_refl) as [R1 R2]. rewrite R1. apply Block_end; auto.
      unfold text. now rewrite R1.
    + specialize (K (pred d) ltac:(lia)).
      destruct (skip_block n l' (pred d)) as [l''| | |]; auto.
      destruct K as (ts & K1 & K2 & K3 & K4). exists (t :: ts). splits; auto. apply Block_close; auto. lia.
Qed.

(** ** The program *)
Lemma split_ok l : forall out stmts,
  split_items out stmts l = (out ++ flat_map snd (filter is_decl l), stmts ++ filter is_stmt l).
Proof.
  induction l as [|[k c] l IH]; intros out stmts; cbn [split_items filter flat_map]; [now rewrite !app_nil_r|].
  destruct k; unfold is_stmt, is_decl, is_impl; cbn [fst snd negb andb flat_map]; fold is_decl; rewrite IH, <- ?app_assoc; auto.
Qed.

(** ** The names *)
Lemma app_last_inj {A} (a b : list A) x y : a ++ [x] = b ++ [y] -> a = b /\ x = y.
Proof. apply app_inj_tail. Qed.

Lemma src_inj a b : src_name a = src_name b -> a = b.
Proof. unfold src_name. intros H. apply app_inv_head in H. now apply app_inv_tail in H. Qed.
Lemma bin_inj a b : bin_name a = bin_name b -> a = b.
Proof. unfold bin_name. intros H. apply app_inv_tail in H. now apply src_inj. Qed.
Lemma out_inj a b : out_name a = out_name b -> a = b.
Proof. unfold out_name. intros H. apply app_inv_tail in H. now apply src_inj. Qed.

Lemma src_last a : last (src_name a) 0%N = 99%N.
Proof. unfold src_name. change (bs ".c") with ([46%N] ++ [99%N]). rewrite !app_assoc. apply last_last. Qed.
Lemma bin_last a : last (bin_name a) 0%N = 110%N.
Proof. unfold bin_name. change (bs ".bin") with ([46;98;105]%N ++ [110%N]). rewrite !app_assoc. apply last_last. Qed.
Lemma out_last a : last (out_name a) 0%N = 116%N.
Proof. unfold out_name. change (bs ".out") with ([46;111;117]%N ++ [116%N]). rewrite !app_assoc. apply last_last. Qed.

Ltac ends H := apply (f_equal (fun x => last x 0%N)) in H; rewrite ?src_last, ?bin_last, ?out_last in H; discriminate H.

Lemma src_bin a b : src_name a <> bin_name b. Proof. intros H. ends H. Qed.
Lemma src_out a b : src_name a <> out_name b. Proof. intros H. ends H. Qed.
Lemma bin_out a b : bin_name a <> out_name b. Proof. intros H. ends H. Qed.

Lemma mine_inj a b x : mine a x -> mine b x -> a = b.
Proof.
  intros [->|[->| ->]] [H|[H|H]]; auto using src_inj, bin_inj, out_inj; ends H.
Qed.

Lemma put_same m n c : put m n c n = c.
Proof. unfold put. now rewrite beq_bytes_refl. Qed.
Lemma put_other m n c x : x <> n -> put m n c x = m x.
Proof. unfold put. intros H. destruct (beq_bytes x n) eqn:E; auto. apply beq_bytes_true in E. contradiction. Qed.

(** ** The steps *)
Section Oracles.
  Variable cc : bytes -> bool.
  Variable exec : bytes -> bytes * Z.

  Definition good (m : fs) (p : proc) : Prop :=
    let d := digits p in
    match at_ p with
    | Begin => True
    | Written => m (src_name d) = Some (Text (prog p))
    | Compiled => cc (prog p) = true /\ m (bin_name d) = Some (Binary (prog p))
    | Ran => exists o, result cc exec (prog p) = Some o /\ m (out_name d) = Some (Text o)
    | Loaded o => result cc exec (prog p) = Some o
    | NoSrc o => result cc exec (prog p) = Some o /\ m (src_name d) = None
    | NoBin o => result cc exec (prog p) = Some o /\ m (src_name d) = None /\ m (bin_name d) = None
    | Done o => result cc exec (prog p) = Some o /\ m (src_name d) = None /\ m (bin_name d) = None /\ m (out_name d) = None
    | Failed => result cc exec (prog p) = None
    end.

  Lemma good_local m m' p : (forall x, mine (digits p) x -> m' x = m x) -> good m p -> good m' p.
  Proof.
    intros H. unfold good.
    assert (H1 := H (src_name (digits p)) (or_introl eq_refl)).
    assert (H2 := H (bin_name (digits p)) (or_intror (or_introl eq_refl))).
    assert (H3 := H (out_name (digits p)) (or_intror (or_intror eq_refl))).
    destruct (at_ p); rewrite ?H1, ?H2, ?H3; auto.
  Qed.

  Lemma step1_local m p x : ~ mine (digits p) x -> fst (step1 cc exec m p) x = m x.
  Proof.
    intros H. assert (H1 : x <> src_name (digits p)) by (intros ->; apply H; left; auto).
    assert (H2 : x <> bin_name (digits p)) by (intros ->; apply H; right; left; auto).
    assert (H3 : x <> out_name (digits p)) by (intros ->; apply H; right; right; auto).
    unfold step1. destruct (at_ p); cbn [fst]; rewrite ?put_other; auto.
    - destruct (m _) as [[c|c]|]; auto. destruct (cc c); cbn [fst]; rewrite ?put_other; auto.
    - destruct (m _) as [[c|c]|]; cbn [fst]; rewrite ?put_other; auto. destruct (exec c). cbn [fst]. now apply put_other.
    - destruct (m _) as [[c|c]|]; auto.
  Qed.

  Lemma step1_good m p : good m p ->
    good (fst (step1 cc exec m p)) (P (digits p) (prog p) (snd (step1 cc exec m p))).
  Proof.
    unfold good at 1, step1. destruct (at_ p) eqn:S; intros G.
    - cbn. now rewrite put_same.
    - rewrite G. destruct (cc (prog p)) eqn:C; cbn.
      + now rewrite put_same.
      + unfold result. now rewrite C.
    - destruct G as [C G]. rewrite G. destruct (exec (prog p)) as [o st] eqn:E.
      destruct (st =? 0)%Z eqn:Z0; cbn.
      + exists o. unfold result. rewrite C, E. cbn [fst snd]. rewrite Z0, put_same. auto.
      + unfold result. rewrite C, E. cbn [fst snd]. now rewrite Z0.
    - destruct G as (o & R & G). rewrite G. cbn. auto.
    - cbn. now rewrite put_same.
    - destruct G as [R G]. cbn. rewrite put_same, put_other by apply src_bin. auto.
    - destruct G as (R & G1 & G2). cbn. rewrite put_same, !put_other by (apply src_out || apply bin_out). auto.
    - cbn. auto.
    - cbn. auto.
  Qed.

  Definition ids (w : world) : list (bytes * bytes) := map (fun p => (digits p, prog p)) (snd w).

  Lemma step_ids w i : ids (step cc exec w i) = ids w.
  Proof.
    unfold ids, step. destruct (nth_error (snd w) i) as [p|] eqn:E; auto.
    destruct (step1 cc exec (fst w) p) as [m st]. cbn [snd].
    apply nth_error_split in E. destruct E as (l1 & l2 & E & L). rewrite E, <- L, firstn_app, Nat.sub_diag, firstn_all.
    cbn [firstn]. rewrite app_nil_r. replace (skipn (S (length l1)) (l1 ++ p :: l2)) with l2.
    2:{ change (p :: l2) with ([p] ++ l2). rewrite app_assoc, skipn_app, skipn_all2 by (rewrite app_length; cbn; lia).
        rewrite app_length. cbn [length]. replace (S (length l1) - (length l1 + 1)) with 0 by lia. reflexivity. }
    rewrite !map_app. reflexivity.
  Qed.

  Definition ok (m0 : fs) (w : world) : Prop :=
    NoDup (map digits (snd w)) /\ Forall (good (fst w)) (snd w) /\
    (forall x, (forall p, In p (snd w) -> ~ mine (digits p) x) -> fst w x = m0 x).

  Lemma step_ok m0 w i : ok m0 w -> ok m0 (step cc exec w i).
  Proof.
    intros (Nd & G & U). unfold step. destruct (nth_error (snd w) i) as [p|] eqn:E; [|split; auto].
    destruct (step1 cc exec (fst w) p) as [m st] eqn:S1.
    apply nth_error_split in E. destruct E as (l1 & l2 & E & L). rewrite E, <- L, firstn_app, Nat.sub_diag, firstn_all.
    cbn [firstn]. rewrite app_nil_r. replace (skipn (S (length l1)) (l1 ++ p :: l2)) with l2.
    2:{ change (p :: l2) with ([p] ++ l2). rewrite app_assoc, skipn_app, skipn_all2 by (rewrite app_length; cbn; lia).
        rewrite app_length. cbn [length]. replace (S (length l1) - (length l1 + 1)) with 0 by lia. reflexivity. }
    rewrite E in *. unfold ok. cbn [fst snd].
    assert (F : forall x, ~ mine (digits p) x -> m x = fst w x).
    { intros x H. pose proof (step1_local (fst w) p x H) as K. now rewrite S1 in K. }
    apply Forall_app in G. destruct G as [G1 G2]. apply Forall_cons_iff in G2. destruct G2 as [G2 G3].
    rewrite map_app in Nd. cbn [map] in Nd. pose proof (NoDup_remove_2 _ _ _ Nd) as Ni.
    assert (O : forall q, In q (l1 ++ l2) -> good (fst w) q -> good m q).
    { intros q Iq. apply good_local. intros x M. apply F. intros M'. apply Ni.
      rewrite <- map_app. rewrite (mine_inj _ _ _ M' M). now apply in_map. }
    splits.
    - rewrite map_app. exact Nd.
    - apply Forall_app. split; [|constructor].
      + rewrite Forall_forall in *. intros q Iq. apply O; [apply in_or_app; auto|auto].
      + pose proof (step1_good (fst w) p G2) as K. now rewrite S1 in K.
      + rewrite Forall_forall in *. intros q Iq. apply O; [apply in_or_app; auto|auto].
    - intros x H. rewrite F.
      + apply U. intros q Iq. apply in_app_or in Iq. destruct Iq as [Iq|[<-|Iq]].
        * apply H. apply in_or_app. auto.
        * apply (H (P (digits p) (prog p) st)). apply in_or_app. right. left. reflexivity.
        * apply H. apply in_or_app. right. right. exact Iq.
      + apply (H (P (digits p) (prog p) st)). apply in_or_app. right. left. reflexivity.
  Qed.

  Lemma run_ok m0 sched : forall w, ok m0 w -> ok m0 (run cc exec w sched).
  Proof.
    induction sched as [|i sched IH]; intros w H; cbn [run fold_left]; auto. apply IH, step_ok, H.
  Qed.
  Lemma run_ids sched : forall w, ids (run cc exec w sched) = ids w.
  Proof.
    induction sched as [|i sched IH]; intros w; cbn [run fold_left]; auto.
    change (fold_left (step cc exec) sched (step cc exec w i)) with (run cc exec (step cc exec w i) sched).
    rewrite IH. apply step_ids.
  Qed.
End Oracles.

(** ** Every compiler finishes after seven turns *)
Section Turns.
  Variable cc : bytes -> bool.
  Variable exec : bytes -> bytes * Z.
  Definition rank (s : stage) : nat :=
    match s with
    | Begin => 7 | Written => 6 | Compiled => 5 | Ran => 4 | Loaded _ => 3 | NoSrc _ => 2 | NoBin _ => 1
    | Done _ | Failed => 0
    end.
  Lemma step1_rank m p : rank (snd (step1 cc exec m p)) <= pred (rank (at_ p)).
  Proof.
    unfold step1. destruct (at_ p); cbn; auto.
    - destruct (m _) as [[c|c]|]; cbn; try lia. destruct (cc c); cbn; lia.
    - destruct (m _) as [[c|c]|]; cbn; try lia. destruct (exec c) as [o st]. cbn. destruct (st =? 0)%Z; cbn; lia.
    - destruct (m _) as [[c|c]|]; cbn; lia.
  Qed.
  Lemma nth_replace {A} (l : list A) i x y : nth_error l i = Some y ->
    forall j, nth_error (firstn i l ++ x :: skipn (S i) l) j = if i =? j then Some x else nth_error l j.
  Proof.
    revert i. induction l as [|a l IH]; intros [|i] H j; try discriminate.
    - destruct j; reflexivity.
    - destruct j as [|j]; [reflexivity|]. cbn [firstn app nth_error Nat.eqb skipn]. now apply IH.
  Qed.
  Lemma turns sched : forall w i p, nth_error (snd w) i = Some p ->
    exists q, nth_error (snd (run cc exec w sched)) i = Some q /\ digits q = digits p /\ prog q = prog p /\
      rank (at_ q) <= rank (at_ p) - count_occ Nat.eq_dec sched i.
  Proof.
    induction sched as [|j sched IH]; intros w i p H.
    { exists p. cbn. splits; auto. lia. }
    change (run cc exec w (j :: sched)) with (run cc exec (step cc exec w j) sched).
    assert (K : exists q, nth_error (snd (step cc exec w j)) i = Some q /\ digits q = digits p /\ prog q = prog p /\
      rank (at_ q) <= rank (at_ p) - (if Nat.eq_dec j i then 1 else 0)).
    { unfold step. destruct (nth_error (snd w) j) as [r|] eqn:E.
      - pose proof (step1_rank (fst w) r) as R. destruct (step1 cc exec (fst w) r) as [m st]. cbn [fst snd] in *.
        rewrite (nth_replace _ _ _ _ E). destruct (Nat.eqb_spec j i) as [->|Ne].
        + rewrite H in E. injection E as <-. eexists. split; [reflexivity|]. cbn. splits; auto.
          destruct (Nat.eq_dec i i); [|contradiction]. lia.
        + exists p. splits; auto. destruct (Nat.eq_dec j i); [contradiction|lia].
      - exists p. splits; auto. destruct (Nat.eq_dec j i); [|lia]. congruence. }
    destruct K as (q & K1 & K2 & K3 & K4). destruct (IH _ _ _ K1) as (q' & I1 & I2 & I3 & I4).
    exists q'. splits; auto; try congruence. cbn [count_occ]. destruct (Nat.eq_dec j i); lia.
  Qed.
End Turns.
