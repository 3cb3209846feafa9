From Verif Require Import Common Edit_Model Edit_Spec.

Lemma firstn_exact {A} (a b : list A) n : length a = n -> firstn n (a ++ b) = a.
Proof. intros <-. rewrite firstn_app, Nat.sub_diag, firstn_all. cbn. now rewrite app_nil_r. Qed.
Lemma skipn_exact {A} (a b : list A) n : length a = n -> skipn n (a ++ b) = b.
Proof. intros <-. rewrite skipn_app, Nat.sub_diag, skipn_all. reflexivity. Qed.

(** ** The buffer holds the text *)
Definition holds (t : bytes) (s : ed) : Prop :=
  (exists junk, e_buf s = map Some (t ++ [0%N]) ++ junk) /\ e_size s = length (e_buf s) /\ e_len s = length t /\
  e_pos s <= length t /\ no_nul t.

Lemma c_string_ok t junk : no_nul t -> c_string (map Some (t ++ [0%N]) ++ junk) = Ok t.
Proof.
  intros H. induction t as [|c t IH]; cbn [map app c_string]; [reflexivity|].
  inversion H; subst. destruct (N.eqb_spec c 0); [congruence|]. change (list N) with bytes. rewrite IH by auto. reflexivity.
Qed.
Lemma holds_read t s : holds t s -> c_string (e_buf s) = Ok t.
Proof. intros ((j & ->) & _ & _ & _ & H). now apply c_string_ok. Qed.

Lemma no_nul_app a b : no_nul (a ++ b) <-> no_nul a /\ no_nul b.
Proof. apply Forall_app. Qed.

Lemma no_nul_firstn n t : no_nul t -> no_nul (firstn n t).
Proof. intros H. rewrite <- (firstn_skipn n t) in H. now apply no_nul_app in H. Qed.
Lemma no_nul_skipn n t : no_nul t -> no_nul (skipn n t).
Proof. intros H. rewrite <- (firstn_skipn n t) in H. now apply no_nul_app in H. Qed.

(** the text before and after the cursor *)
Lemma holds_split t s : holds t s ->
  exists x y junk, t = x ++ y /\ length x = e_pos s /\ x = firstn (e_pos s) t /\ y = skipn (e_pos s) t /\
    e_buf s = map Some x ++ map Some (y ++ [0%N]) ++ junk /\ e_size s = length (e_buf s) /\
    e_len s = length x + length y /\ no_nul x /\ no_nul y.
Proof.
  intros ((j & H) & S1 & L & P & N1).
  exists (firstn (e_pos s) t), (skipn (e_pos s) t), j. splits; auto.
  - now rewrite firstn_skipn.
  - rewrite firstn_length. lia.
  - rewrite H, app_assoc, <- map_app. rewrite app_assoc, firstn_skipn. reflexivity.
  - rewrite L, <- app_length, firstn_skipn. reflexivity.
  - now apply no_nul_firstn.
  - now apply no_nul_skipn.
Qed.

Definition same_rest (s s' : ed) : Prop :=
  e_hidx s' = e_hidx s /\ e_saved s' = e_saved s /\ e_search s' = e_search s /\ e_sbuf s' = e_sbuf s /\ e_smatch s' = e_smatch s.
Lemma same_refl s : same_rest s s.
Proof. unfold same_rest. auto. Qed.

Lemma backspace_ok t s : holds t s ->
  exists s', backspace s = Ok s' /\ holds (firstn (e_pos s - 1) t ++ skipn (e_pos s) t) s' /\
             e_pos s' = e_pos s - 1 /\ same_rest s s' /\ e_size s' = e_size s.
Proof.
  intros H. unfold backspace. destruct (Nat.ltb_spec 0 (e_pos s)) as [P|P].
  2:{ exists s. splits; auto using same_refl; try lia. replace (e_pos s) with 0 by lia. exact H. }
  destruct (holds_split t s H) as (x & y & j & E & Lx & Ex & Ey & B & Sz & L & Nx & Ny).
  assert (exists x' c, x = x' ++ [c]) as (x' & c & ->).
  { destruct (exists_last (l := x)) as (x' & c & ->); [intros ->; cbn in Lx; lia|eauto]. }
  rewrite app_length in Lx, L; cbn [length] in Lx, L.
  unfold bcopy.
  assert (LB : length (e_buf s) = length x' + 1 + (length y + 1) + length j).
  { rewrite B, !app_length, !map_length, !app_length. cbn. lia. }
  destruct (Nat.leb_spec (e_pos s + (e_len s - e_pos s + 1)) (length (e_buf s))); [|lia].
  destruct (Nat.leb_spec (e_pos s - 1 + (e_len s - e_pos s + 1)) (length (e_buf s))); [|lia]. cbn [andb bind].
  eexists. split; [reflexivity|]. unfold with_text, same_rest; cbn [e_pos e_hidx e_saved e_search e_sbuf e_smatch e_size].
  replace (firstn (e_pos s - 1) t) with x'.
  2:{ rewrite E, <- app_assoc. symmetry. apply firstn_exact. lia. }
  rewrite <- Ey. splits; auto. unfold holds. cbn [e_buf e_size e_len e_pos].
  assert (Q : firstn (e_pos s - 1) (e_buf s) ++ firstn (e_len s - e_pos s + 1) (skipn (e_pos s) (e_buf s)) =
              map Some ((x' ++ y) ++ [0%N])).
  { rewrite B. rewrite (skipn_exact (map Some (x' ++ [c]))) by (rewrite map_length, app_length; cbn; lia).
    rewrite (firstn_exact (map Some (y ++ [0%N]))) by (rewrite map_length, app_length; cbn; lia).
    rewrite (map_app Some x'), <- app_assoc. rewrite firstn_exact by (rewrite map_length; lia).
    rewrite <- map_app, app_assoc. reflexivity. }
  splits.
  - rewrite app_assoc, Q. eauto.
  - rewrite app_assoc, Q, !app_length, map_length, !app_length, skipn_length. cbn. lia.
  - rewrite app_length. lia.
  - rewrite app_length. lia.
  - apply no_nul_app. apply no_nul_app in Nx. tauto.
Qed.

Lemma kill_start_ok t s : holds t s ->
  exists s', kill_start s = Ok s' /\ holds (skipn (e_pos s) t) s' /\ e_pos s' = 0 /\ same_rest s s' /\ e_size s' = e_size s.
Proof.
  intros H. unfold kill_start. destruct (Nat.ltb_spec 0 (e_pos s)) as [P|P].
  2:{ exists s. splits; auto using same_refl; try lia. replace (e_pos s) with 0 by lia. exact H. }
  destruct (holds_split t s H) as (x & y & j & E & Lx & Ex & Ey & B & Sz & L & Nx & Ny).
  unfold bcopy.
  assert (LB : length (e_buf s) = length x + (length y + 1) + length j).
  { rewrite B, !app_length, !map_length, !app_length. cbn. lia. }
  destruct (Nat.leb_spec (e_pos s + (e_len s - e_pos s + 1)) (length (e_buf s))); [|lia].
  destruct (Nat.leb_spec (0 + (e_len s - e_pos s + 1)) (length (e_buf s))); [|lia]. cbn [andb bind].
  eexists. split; [reflexivity|]. unfold with_text, same_rest; cbn [e_pos e_hidx e_saved e_search e_sbuf e_smatch e_size].
  rewrite <- Ey. splits; auto. unfold holds. cbn [e_buf e_size e_len e_pos].
  assert (Q : firstn (e_len s - e_pos s + 1) (skipn (e_pos s) (e_buf s)) = map Some (y ++ [0%N])).
  { rewrite B. rewrite skipn_exact by (rewrite map_length; lia).
    apply firstn_exact. rewrite map_length, app_length. cbn. lia. }
  rewrite Q. cbn [firstn app]. splits.
  - eauto.
  - rewrite app_length, map_length, app_length, skipn_length. cbn. lia.
  - lia.
  - lia.
  - auto.
Qed.

Lemma kill_end_ok t s : holds t s ->
  exists s', kill_end s = Ok s' /\ holds (firstn (e_pos s) t) s' /\ e_pos s' = e_pos s /\ same_rest s s' /\ e_size s' = e_size s.
Proof.
  intros H. unfold kill_end.
  destruct (holds_split t s H) as (x & y & j & E & Lx & Ex & Ey & B & Sz & L & Nx & Ny).
  assert (LB : length (e_buf s) = length x + (length y + 1) + length j).
  { rewrite B, !app_length, !map_length, !app_length. cbn. lia. }
  unfold bset. destruct (Nat.ltb_spec (e_pos s) (length (e_buf s))); [|lia]. cbn [bind].
  eexists. split; [reflexivity|]. unfold with_text, same_rest; cbn [e_pos e_hidx e_saved e_search e_sbuf e_smatch e_size].
  rewrite <- Ex. splits; auto. unfold holds. cbn [e_buf e_size e_len e_pos].
  rewrite length_upd. splits; auto; try lia.
  rewrite B. rewrite upd_app_r by (rewrite map_length; lia). rewrite map_length.
  replace (e_pos s - length x) with 0 by lia.
  destruct (map Some (y ++ [0%N]) ++ j) as [|z r] eqn:Q.
  - exfalso. apply (f_equal (@length _)) in Q. rewrite app_length, map_length, app_length in Q. cbn in Q. lia.
  - cbn [upd]. exists r. rewrite map_app, <- app_assoc. reflexivity.
Qed.

Lemma firstn_S_app {A} (l : list A) n : n < length l -> exists z, firstn (n + 1) l = firstn n l ++ [z].
Proof.
  revert n; induction l as [|a l IH]; intros n H; cbn in *; [lia|].
  destruct n; cbn; [eauto|]. destruct (IH n) as (z & ->); [lia|]. eauto.
Qed.

Lemma insert_ok t s c : holds t s -> c <> 0%N ->
  exists s', insert c s = Ok s' /\ holds (firstn (e_pos s) t ++ c :: skipn (e_pos s) t) s' /\
             e_pos s' = S (e_pos s) /\ same_rest s s' /\ e_size s <= e_size s'.
Proof.
  intros H C0. unfold insert.
  destruct (holds_split t s H) as (x & y & j & E & Lx & Ex & Ey & B & Sz & L & Nx & Ny).
  assert (LB : length (e_buf s) = length x + (length y + 1) + length j).
  { rewrite B, !app_length, !map_length, !app_length. cbn. lia. }
  match goal with |- exists _, (let '(b, size) := ?p in _) = _ /\ _ => set (pr := p) end.
  assert (G : exists j', fst pr = map Some x ++ map Some (y ++ [0%N]) ++ j' /\ snd pr = length (fst pr) /\ 1 <= length j' /\ e_size s <= snd pr).
  { subst pr. destruct (Nat.leb_spec (e_size s - 1) (e_len s)); cbn [fst snd].
    - exists (j ++ repeat None (e_size s * 2 - length (e_buf s))). splits.
      + unfold brealloc. rewrite firstn_all2 by lia. rewrite B at 1. now rewrite <- !app_assoc.
      + now rewrite length_brealloc.
      + rewrite app_length, repeat_length. lia.
      + lia.
    - exists j. splits; auto; lia. }
  destruct pr as (b, size). cbn [fst snd] in G. destruct G as (j' & Eb & Es & Ej & Ge).
  assert (LB' : length b = length x + (length y + 1) + length j').
  { rewrite Eb, !app_length, !map_length, !app_length. cbn. lia. }
  unfold bcopy.
  destruct (Nat.leb_spec (e_pos s + (e_len s - e_pos s + 1)) (length b)); [|lia].
  destruct (Nat.leb_spec (e_pos s + 1 + (e_len s - e_pos s + 1)) (length b)); [|lia]. cbn [andb bind].
  destruct (firstn_S_app b (e_pos s)) as (z & Ez); [lia|]. rewrite Ez.
  assert (F : firstn (e_pos s) b = map Some x).
  { rewrite Eb. apply firstn_exact. rewrite map_length. lia. }
  assert (G : firstn (e_len s - e_pos s + 1) (skipn (e_pos s) b) = map Some (y ++ [0%N])).
  { rewrite Eb. rewrite skipn_exact by (rewrite map_length; lia).
    apply firstn_exact. rewrite map_length, app_length. cbn. lia. }
  rewrite F, G. unfold bset.
  match goal with |- exists _, bind (if _ <? length ?b' then _ else _) _ = _ /\ _ => set (b1 := b') end.
  assert (Lb1 : length b1 = length b).
  { unfold b1. rewrite !app_length, !map_length, app_length, skipn_length. cbn. lia. }
  destruct (Nat.ltb_spec (e_pos s) (length b1)); [|lia]. cbn [bind].
  eexists. split; [reflexivity|]. unfold with_text, same_rest; cbn [e_pos e_hidx e_saved e_search e_sbuf e_smatch e_size].
  rewrite <- Ex, <- Ey. splits; auto. unfold holds. cbn [e_buf e_size e_len e_pos].
  assert (Q : exists r, upd b1 (e_pos s) (Some c) = map Some ((x ++ c :: y) ++ [0%N]) ++ r).
  { unfold b1. exists (skipn (e_pos s + 1 + (e_len s - e_pos s + 1)) b).
    rewrite <- app_assoc. cbn [app]. rewrite upd_middle' by (rewrite map_length; lia).
    repeat (rewrite ?map_app, <- ?app_assoc; cbn [app map]). reflexivity. }
  rewrite length_upd. splits; auto.
  - congruence.
  - rewrite app_length. cbn. lia.
  - rewrite app_length. cbn. lia.
  - apply no_nul_app. split; auto. constructor; auto.
Qed.

Lemma load_holds t s : no_nul t -> holds t (load t s).
Proof.
  intros H. unfold holds, load; cbn. splits; auto.
  - exists []. unfold dup. now rewrite app_nil_r.
  - unfold dup. rewrite map_length, app_length. cbn. lia.
Qed.

(** ** The initial line *)
Lemma indent_ok n : forall b size len, size = length b -> len < size -> firstn len b = map Some (repeat 32%N len) ->
  exists b' size', indent n b size len = Ok (b', size', len + n) /\ size' = length b' /\ len + n < size' /\
    size <= size' /\ firstn (len + n) b' = map Some (repeat 32%N (len + n)).
Proof.
  induction n as [|n IH]; intros b size len Hs Hl Hf; cbn [indent].
  - exists b, size. rewrite Nat.add_0_r. auto.
  - match goal with |- context[let '(b, size) := ?p in _] => set (pr := p) end.
    assert (G : snd pr = length (fst pr) /\ S len < snd pr /\ size <= snd pr /\ firstn len (fst pr) = map Some (repeat 32%N len)).
    { subst pr. destruct (Nat.leb_spec (size - 1) len); cbn [fst snd]; splits; auto; try lia.
      - now rewrite length_brealloc.
      - unfold brealloc. rewrite (firstn_all2 b) by lia. rewrite firstn_app.
        replace (len - length b) with 0 by lia. cbn. now rewrite app_nil_r. }
    destruct pr as (b1, size1). cbn [fst snd] in G. destruct G as (G1 & G2 & G3 & G4).
    unfold bset. destruct (Nat.ltb_spec len (length b1)); [|lia]. cbn [bind].
    destruct (IH (upd b1 len (Some 32%N)) size1 (S len)) as (b' & size' & E & A & B & C & D).
    + now rewrite length_upd.
    + lia.
    + rewrite <- (firstn_skipn len b1). rewrite G4.
      destruct (skipn len b1) as [|z r] eqn:Q.
      { apply (f_equal (@length _)) in Q. rewrite skipn_length in Q. cbn in Q. lia. }
      rewrite upd_middle' by (rewrite map_length, repeat_length; reflexivity).
      replace (map Some (repeat 32%N len) ++ Some 32%N :: r) with ((map Some (repeat 32%N len) ++ [Some 32%N]) ++ r) by now rewrite <- app_assoc.
      rewrite firstn_exact by (rewrite app_length, map_length, repeat_length; cbn; lia).
      rewrite (repeat_cons len 32%N : repeat 32%N (S len) = _), map_app. reflexivity.
    + exists b', size'. rewrite E. replace (len + S n) with (S len + n) by lia. splits; auto; lia.
Qed.

Definition fresh (hist : list bytes) (s : ed) : Prop :=
  e_hidx s = length hist /\ e_saved s = None /\ e_search s = false /\ e_sbuf s = [].

Lemma init_ok hist level :
  exists s, init hist level = Ok s /\ holds (repeat 32%N (level * 4)) s /\ e_pos s = level * 4 /\ fresh hist s /\ 1024 <= e_size s.
Proof.
  unfold init. unfold bset at 1. rewrite (repeat_length None 1024 : length (@bnew N 1024) = 1024). destruct (Nat.ltb_spec 0 1024); [|lia]. cbn [bind].
  destruct (indent_ok (level * 4) (upd (bnew 1024) 0 (Some 0%N)) 1024 0) as (b & size & E & A & B & C & D).
  - rewrite length_upd. unfold bnew. now rewrite repeat_length.
  - lia.
  - reflexivity.
  - rewrite Nat.add_0_l in *. rewrite E. cbn [bind]. unfold bset. destruct (Nat.ltb_spec (level * 4) (length b)); [|lia].
    cbn [bind]. eexists. split; [reflexivity|]. unfold fresh, holds. cbn. splits; auto.
    + rewrite <- (firstn_skipn (level * 4) b), D.
      destruct (skipn (level * 4) b) as [|z r] eqn:Q.
      { apply (f_equal (@length _)) in Q. rewrite skipn_length in Q. cbn in Q. lia. }
      exists r. rewrite upd_middle' by (rewrite map_length, repeat_length; reflexivity).
      rewrite map_app, <- app_assoc. reflexivity.
    + now rewrite length_upd.
    + now rewrite repeat_length.
    + rewrite repeat_length. lia.
    + clear. induction (level * 4); constructor; auto. discriminate.
Qed.

(** ** Completion *)
Lemma word_char_iff c : word_char c = true <-> letter c.
Proof.
  unfold word_char, isalnum, letter. split; intros H.
  - repeat (rewrite ?orb_true_iff, ?andb_true_iff, ?N.leb_le, ?N.eqb_eq in H). lia.
  - repeat (rewrite ?orb_true_iff, ?andb_true_iff, ?N.leb_le, ?N.eqb_eq). lia.
Qed.
Lemma bget_text t junk k c : nth_error t k = Some c -> bget (map Some (t ++ [0%N]) ++ junk) k = Ok c.
Proof.
  intros H. assert (k < length t) by (apply nth_error_Some; congruence).
  unfold bget. rewrite nth_error_app1 by (rewrite map_length, app_length; lia).
  rewrite nth_error_map, nth_error_app1, H by lia. reflexivity.
Qed.
Lemma firstn_S {A} (l : list A) k c : nth_error l k = Some c -> firstn (S k) l = firstn k l ++ [c].
Proof.
  revert k; induction l as [|a l IH]; intros [|k] H; cbn in *; try discriminate.
  - congruence.
  - f_equal. now apply IH.
Qed.
Lemma word_start_ok t junk p : p <= length t ->
  exists u w, firstn p t = u ++ w /\ Forall letter w /\ (u = [] \/ exists u' c, u = u' ++ [c] /\ ~ letter c) /\
    word_start (map Some (t ++ [0%N]) ++ junk) p = Ok (length u).
Proof.
  induction p as [|k IH]; intros H; cbn [word_start].
  - exists [], []. auto.
  - destruct (nth_error_lt t k) as (c & E); [lia|]. rewrite (bget_text t junk k c E). cbn [bind].
    rewrite (firstn_S t k c E). destruct (word_char c) eqn:W.
    + destruct IH as (u & w & A & B & C & D); [lia|]. exists u, (w ++ [c]). rewrite A, app_assoc. splits; auto.
      apply Forall_app. split; auto. constructor; auto. now apply word_char_iff.
    + exists (firstn k t ++ [c]), []. rewrite app_nil_r. splits; auto.
      * right. exists (firstn k t), c. split; auto. intros Q. apply word_char_iff in Q. congruence.
      * rewrite app_length, firstn_length. cbn. f_equal. lia.
Qed.
Lemma letters_end {A} (P : A -> Prop) (u1 w1 u2 w2 l : list A) :
  w1 = l ++ w2 -> u2 = u1 ++ l -> Forall P w1 -> (u2 = [] \/ exists u' c, u2 = u' ++ [c] /\ ~ P c) -> l = [].
Proof.
  intros -> -> F [Q|(u' & c & Q & NP)].
  - now apply app_eq_nil in Q.
  - destruct l as [|a l] using rev_ind; auto. rewrite app_assoc in Q. apply app_inj_tail in Q as (_ & ->).
    exfalso. apply NP. apply Forall_app in F as (F & _). apply Forall_app in F as (_ & F). now inversion F.
Qed.
Lemma word_unique t p w1 w2 : word_before t p w1 -> word_before t p w2 -> w1 = w2.
Proof.
  intros (u1 & E1 & F1 & B1) (u2 & E2 & F2 & B2). rewrite E1 in E2.
  apply app_eq_app in E2 as (l & [(-> & E)|(E3 & ->)]).
  - rewrite (letters_end letter u2 w2 (u2 ++ l) w1 l) in E; auto.
  - rewrite (letters_end letter u1 (l ++ w2) u2 w2 l); auto.
Qed.
Lemma read_from_ok t junk : forall w u, (exists v, t = u ++ w ++ v) ->
  read_from (map Some (t ++ [0%N]) ++ junk) (length u) (length w) = Ok w.
Proof.
  induction w as [|c w IH]; intros u (v & ->); cbn [length read_from]; [reflexivity|].
  rewrite (bget_text _ junk _ c) by (rewrite nth_error_app2, Nat.sub_diag by lia; reflexivity). cbn [bind].
  specialize (IH (u ++ [c])). rewrite app_length in IH. cbn [length] in IH. rewrite Nat.add_1_r in IH. rewrite IH; auto.
  exists v. now rewrite <- !app_assoc.
Qed.

Definition names : list bytes := keywords ++ commands.
Lemma count_ok w l : forall m n,
  count_matches w l (m, n) = (match rev (filter (is_prefix w) l) with k :: _ => Some k | [] => m end, n + length (filter (is_prefix w) l)).
Proof.
  unfold count_matches. induction l as [|k l IH]; intros m n; cbn [fold_left filter].
  - cbn. now rewrite Nat.add_0_r.
  - destruct (is_prefix w k); cbn [snd]; rewrite IH; [|reflexivity]. cbn [rev length].
    destruct (rev (filter (is_prefix w) l)); cbn; f_equal; lia.
Qed.
Lemma filter_nil {A} (f : A -> bool) l : (forall x, In x l -> f x = false) -> filter f l = [].
Proof. induction l as [|a l IH]; intros H; cbn; auto. rewrite H by now left. apply IH. intros; apply H; now right. Qed.
Lemma commands_colon k : In k commands -> exists r, k = 58%N :: r.
Proof. cbv [commands map In]. intros H. repeat (destruct H as [<-|H]; [eexists; cbn; reflexivity|]). destruct H. Qed.
Lemma count_app w a b mc : count_matches w (a ++ b) mc = count_matches w b (count_matches w a mc).
Proof. unfold count_matches. apply fold_left_app. Qed.
Lemma two_counts w : w <> [] ->
  (let '(m, n) := count_matches w keywords (None, 0) in
   if (nth 0 w 0 =? 58)%N then count_matches w commands (m, n) else (m, n)) = count_matches w names (None, 0).
Proof.
  intros W. unfold names. rewrite count_app. destruct (count_matches w keywords (None, 0)) as (m, n).
  destruct (N.eqb_spec (nth 0 w 0%N) 58); auto.
  rewrite count_ok. rewrite filter_nil; [cbn [rev length]; now rewrite Nat.add_0_r|].
  intros k H. destruct (commands_colon k H) as (r & ->). destruct w as [|c w]; [congruence|]. cbn [nth] in *.
  cbn [is_prefix]. destruct (N.eqb_spec c 58); [congruence|reflexivity].
Qed.
(** the names that start with the word *)
Definition candidates (w : bytes) : list bytes := filter (is_prefix w) names.
Definition completion (w : bytes) : option bytes :=
  match w with [] => None | _ => if 255 <=? length w then None else
      match candidates w with [k] => Some (skipn (length w) k) | _ => None end end.
Lemma complete_ok t junk p w : p <= length t -> word_before t p w ->
  complete (map Some (t ++ [0%N]) ++ junk) p = Ok (completion w).
Proof.
  intros P H. unfold complete, completion.
  destruct (word_start_ok t junk p P) as (u & w' & E & F & B & ->). cbn [bind].
  assert (w' = w) as -> by (apply (word_unique t p); [exists u; auto|auto]).
  assert (L : length u + length w = p).
  { rewrite <- app_length, <- E, firstn_length. lia. }
  replace (p - length u) with (length w) by lia.
  destruct w as [|c w]; [reflexivity|]. destruct (Nat.eqb_spec (length (c :: w)) 0) as [Q|_]; [cbn in Q; lia|].
  destruct (255 <=? length (c :: w)); [reflexivity|].
  rewrite read_from_ok by (exists (skipn p t); now rewrite app_assoc, <- E, firstn_skipn). cbn [bind].
  pose proof (two_counts (c :: w)) as T.
  destruct (count_matches (c :: w) keywords (None, 0)) as (m, n).
  rewrite T by discriminate. rewrite count_ok. unfold candidates. generalize (filter (is_prefix (c :: w)) names). intros l0.
  destruct l0 as [|k [|k2 l]]; cbn [rev app length Nat.add Nat.eqb]; try reflexivity.
Qed.
Lemma complete_total t (junk : buf N) p : p <= length t -> exists w, word_before t p w.
Proof. intros P. destruct (word_start_ok t junk p P) as (u & w & A & B & C & _). exists w, u. auto. Qed.

Lemma names_ok k : In k names -> no_nul k.
Proof.
  assert (H : forallb (fun k => forallb (fun c => negb (c =? 0)%N) k) names = true) by (vm_compute; reflexivity).
  intros I. rewrite forallb_forall in H. specialize (H k I). rewrite forallb_forall in H.
  apply Forall_forall. intros c C. specialize (H c C). destruct (N.eqb_spec c 0); [discriminate|auto].
Qed.
Fixpoint distinct (l : list bytes) : bool :=
  match l with [] => true | a :: r => negb (existsb (beq_bytes a) r) && distinct r end.
Lemma distinct_ok l : distinct l = true -> NoDup l.
Proof.
  induction l as [|a l IH]; cbn; intros H; constructor; apply andb_true_iff in H as (A & B); auto.
  intros I. apply negb_true_iff in A. assert (existsb (beq_bytes a) l = true); [|congruence].
  apply existsb_exists. exists a. split; auto. apply beq_bytes_refl.
Qed.
Lemma names_nodup : NoDup names.
Proof. apply distinct_ok. vm_compute. reflexivity. Qed.
Lemma filter_one {A} (f : A -> bool) l k : NoDup l -> In k l -> f k = true -> (forall x, In x l -> f x = true -> x = k) -> filter f l = [k].
Proof.
  induction l as [|a l IH]; intros ND I F U; [destruct I|]. inversion ND; subst. cbn. destruct I as [<-|I].
  - rewrite F. f_equal. apply filter_nil. intros x Ix. destruct (f x) eqn:E; auto.
    rewrite (U x) in Ix by (auto; now right). contradiction.
  - destruct (f a) eqn:E.
    + rewrite (U a) in H1 by (auto; now left). contradiction.
    + apply IH; auto. intros; apply U; auto. now right.
Qed.
Lemma only_candidates w k : only_name names w k -> candidates w = [k].
Proof.
  intros (I & P & U). apply filter_one; auto using names_nodup.
  - now apply is_prefix_spec.
  - intros x Ix F. apply is_prefix_spec in F as (r & F). eauto.
Qed.

Lemma in_candidates w k : In k (candidates w) -> In k names.
Proof. unfold candidates. intros I. apply filter_In in I. apply I. Qed.
Lemma completion_ok w k : completion w = Some k -> no_nul k.
Proof.
  unfold completion. intros Q. destruct w; [discriminate|]. destruct (255 <=? _); [discriminate|].
  destruct (candidates (n :: w)) as [|k0 [|]] eqn:Ca; try discriminate. injection Q as <-.
  apply (no_nul_skipn (length (n :: w)) k0). apply names_ok. apply (in_candidates (n :: w)). rewrite Ca. now left.
Qed.
Lemma tab_ok t s : holds t s ->
  exists w, word_before t (e_pos s) w /\
  match completion w with
  | Some k =>
      if e_len s + length k <? e_size s - 1
      then exists s', tab s = Ok s' /\ holds (firstn (e_pos s) t ++ k ++ skipn (e_pos s) t) s' /\
                      e_pos s' = e_pos s + length k /\ same_rest s s' /\ e_size s' = e_size s
      else tab s = Ok s
  | None => tab s = Ok s
  end.
Proof.
  intros H. destruct (holds_split t s H) as (x & y & j & E & Lx & Ex & Ey & B & Sz & L & Nx & Ny).
  pose proof H as H'. destruct H' as ((j2 & B2) & _ & _ & P & Nt).
  destruct (complete_total t j2 (e_pos s) P) as (w & W). exists w. split; auto.
  pose proof (complete_ok t j2 (e_pos s) w P W) as C. rewrite <- B2 in C. unfold tab.
  assert (NK : forall k, completion w = Some k -> no_nul k) by apply completion_ok.
  rewrite C. cbn [bind]. clear C. destruct (completion w) as [k|]; [|reflexivity]. specialize (NK k eq_refl).
  destruct (Nat.ltb_spec (e_len s + length k) (e_size s - 1)) as [Fit|]; [|reflexivity].
  assert (LB : length (e_buf s) = length x + (length y + 1) + length j).
  { rewrite B, !app_length, !map_length, !app_length. cbn. lia. }
  unfold bcopy at 1.
  destruct (Nat.leb_spec (e_pos s + (e_len s - e_pos s + 1)) (length (e_buf s))); [|lia].
  destruct (Nat.leb_spec (e_pos s + length k + (e_len s - e_pos s + 1)) (length (e_buf s))); [|lia]. cbn [andb bind].
  assert (G : firstn (e_len s - e_pos s + 1) (skipn (e_pos s) (e_buf s)) = map Some (y ++ [0%N])).
  { rewrite B. rewrite skipn_exact by (rewrite map_length; lia).
    apply firstn_exact. rewrite map_length, app_length. cbn. lia. }
  rewrite G.
  set (tail := skipn (e_pos s + length k + (e_len s - e_pos s + 1)) (e_buf s)).
  assert (Lt : length tail = length (e_buf s) - (e_pos s + length k + (e_len s - e_pos s + 1))) by (unfold tail; now rewrite skipn_length).
  unfold bcopy.
  assert (Lf : length (firstn (e_pos s + length k) (e_buf s)) = e_pos s + length k) by (rewrite firstn_length; lia).
  destruct (Nat.leb_spec (0 + length k) (length (map Some k))); [|rewrite map_length in *; lia].
  match goal with |- context[_ <=? length ?b'] => assert (Lb : length b' = length (e_buf s)) end.
  { rewrite !app_length, Lf, Lt, map_length, app_length. cbn. lia. }
  rewrite Lb. destruct (Nat.leb_spec (e_pos s + length k) (length (e_buf s))); [|lia]. cbn [andb bind].
  eexists. split; [reflexivity|]. unfold with_text, same_rest; cbn [e_pos e_hidx e_saved e_search e_sbuf e_smatch e_size].
  rewrite <- Ex, <- Ey. splits; auto. unfold holds. cbn [e_buf e_size e_len e_pos].
  rewrite (skipn_exact (firstn (e_pos s + length k) (e_buf s))) by exact Lf.
  replace (firstn (e_pos s) (firstn (e_pos s + length k) (e_buf s) ++ map Some (y ++ [0%N]) ++ tail)) with (map Some x).
  2:{ rewrite firstn_app, Lf. replace (e_pos s - (e_pos s + length k)) with 0 by lia. cbn [firstn]. rewrite app_nil_r.
      rewrite firstn_firstn, Nat.min_l by lia. rewrite B. symmetry. apply firstn_exact. rewrite map_length. lia. }
  cbn [skipn]. rewrite (firstn_all2 (map Some k)) by (rewrite map_length; lia).
  splits.
  - exists tail. repeat (rewrite ?map_app, <- ?app_assoc; cbn [app map]). reflexivity.
  - rewrite !app_length, !map_length, app_length, Lt. cbn [length]. lia.
  - rewrite !app_length. lia.
  - rewrite !app_length. lia.
  - apply no_nul_app. split; auto. apply no_nul_app. auto.
Qed.

(** ** Search *)
Lemma contains_iff text line : contains text line = true <-> occurs text line.
Proof.
  unfold occurs. induction line as [|c line IH]; cbn [contains]; rewrite orb_true_iff, is_prefix_spec.
  - split.
    + intros [(r & E)|Q]; [|discriminate]. exists [], r. auto.
    + intros (a & b & E). left. destruct a; [|discriminate]. exists b. exact E.
  - rewrite IH. split.
    + intros [(r & E)|(a & b & E)]; [exists [], r; auto|]. exists (c :: a), b. now rewrite E.
    + intros ([|a0 a] & b & E); [left; exists b; exact E|]. right. cbn in E. injection E as -> E. exists a, b. auto.
Qed.
Definition hit (hist : list bytes) (text : bytes) (i : nat) : Prop :=
  exists l, nth_error hist i = Some l /\ occurs text l.
Lemma search_back_ok hist text n : n <= length hist ->
  (exists i, search_back hist text n = Ok (Some i) /\ i < n /\ hit hist text i /\ forall j, i < j < n -> ~ hit hist text j) \/
  (search_back hist text n = Ok None /\ forall j, j < n -> ~ hit hist text j).
Proof.
  induction n as [|i IH]; intros H; cbn [search_back].
  - right. split; auto. lia.
  - destruct (nth_error_lt hist i) as (l & E); [lia|]. rewrite E. destruct (contains text l) eqn:C.
    + left. exists i. splits; auto; [|lia]. exists l. split; auto. now apply contains_iff.
    + assert (N : ~ hit hist text i).
      { intros (l' & E' & O). apply contains_iff in O. congruence. }
      destruct IH as [(j & A & B & D & F)|(A & F)]; [lia| |].
      * left. exists j. splits; auto. intros k K. destruct (Nat.eq_dec k i) as [->|]; auto. apply F. lia.
      * right. split; auto. intros k K. destruct (Nat.eq_dec k i) as [->|]; auto. apply F. lia.
Qed.

(** ** Nothing goes wrong, whatever is typed *)
Definition lines_ok (hist : list bytes) : Prop := Forall no_nul hist.
Lemma lines_nth hist i l : lines_ok hist -> nth_error hist i = Some l -> no_nul l.
Proof. intros H E. apply nth_error_In in E. unfold lines_ok in H. rewrite Forall_forall in H. auto. Qed.
Definition wf (hist : list bytes) (s : ed) : Prop :=
  (exists t, holds t s) /\ e_hidx s <= length hist /\ (forall d, e_saved s = Some d -> no_nul d) /\ length (e_sbuf s) <= 255.

Lemma wf_same hist s s' t : wf hist s -> same_rest s s' -> holds t s' -> wf hist s'.
Proof. intros (_ & A & B & C) (E1 & E2 & _ & E3 & _) H. unfold wf. rewrite E1, E2, E3. splits; eauto. Qed.
Lemma wf_load hist s l i : wf hist s -> no_nul l -> i <= length hist -> wf hist (load l (with_hidx i s)).
Proof. intros (_ & A & B & C) N1 Hi. unfold wf. splits; cbn; auto. exists l. now apply load_holds. Qed.
Lemma wf_pos hist s p t : wf hist s -> holds t s -> p <= length t -> wf hist (with_pos p s).
Proof.
  intros (_ & A & B & C) H P. unfold wf. splits; cbn; auto. exists t. destruct H as (H1 & H2 & H3 & H4 & H5).
  unfold holds; cbn. splits; auto.
Qed.
Lemma found_ok hist s i : lines_ok hist -> wf hist s -> i < length hist ->
  exists l, nth_error hist i = Some l /\
    found_entry hist i s = Ok (with_hidx i (load l (with_search (e_search s) (e_sbuf s) i s))) /\
    wf hist (with_hidx i (load l (with_search (e_search s) (e_sbuf s) i s))).
Proof.
  intros LO (W & A & B & C) Hi. destruct (nth_error_lt hist i Hi) as (l & E). exists l. unfold found_entry. rewrite E.
  unfold wf. splits; auto; cbn.
  - exists l. apply (load_holds l s). eapply lines_nth; eauto.
  - lia.
Qed.

Lemma escape_ok hist a b s : lines_ok hist -> wf hist s -> exists s', escape hist a b s = Ok s' /\ wf hist s'.
Proof.
  intros LO W. pose proof W as ((t & H) & Hi & Hd & Hs). unfold escape.
  destruct (negb (a =? 91)%N); [eauto|].
  destruct (b =? 65)%N.
  { destruct (Nat.ltb_spec 0 (e_hidx s)); [|eauto].
    assert (exists s1, (if e_hidx s =? length hist then do t0 <- c_string (e_buf s); Ok (with_saved (Some t0) s) else Ok s) = Ok s1 /\
              wf hist s1 /\ e_hidx s1 = e_hidx s) as (s1 & -> & W1 & E1).
    { destruct (e_hidx s =? length hist).
      - rewrite (holds_read t s H). cbn [bind]. eexists. split; [reflexivity|]. split; [|reflexivity].
        unfold wf. cbn. splits; auto. exists t; exact H. intros d [= <-]. apply H.
      - eauto. }
    cbn [bind]. rewrite E1. destruct (Nat.ltb_spec (e_hidx s - 1) (length hist)); [|lia].
    destruct (nth_error hist (e_hidx s - 1)) as [l|] eqn:E.
    - eexists; split; [reflexivity|]. apply wf_load; auto; try lia. eapply lines_nth; eauto.
    - apply nth_error_None in E. lia. }
  destruct (b =? 66)%N.
  { destruct (Nat.ltb_spec (e_hidx s) (length hist)); [|eauto].
    destruct (Nat.eqb_spec (S (e_hidx s)) (length hist)).
    - eexists; split; [reflexivity|]. apply wf_load; auto; try lia. cbn. destruct (e_saved s) eqn:E; auto. constructor.
    - destruct (nth_error hist (S (e_hidx s))) as [l|] eqn:E.
      + eexists; split; [reflexivity|]. apply wf_load; auto; try lia. eapply lines_nth; eauto.
      + apply nth_error_None in E. lia. }
  pose proof H as (_ & _ & L & P & _).
  destruct (b =? 67)%N.
  { eexists; split; [reflexivity|]. destruct (Nat.ltb_spec (e_pos s) (e_len s)); auto. eapply wf_pos; eauto. lia. }
  destruct (b =? 68)%N.
  { eexists; split; [reflexivity|]. destruct (Nat.ltb_spec 0 (e_pos s)); auto. eapply wf_pos; eauto. lia. }
  destruct (b =? 72)%N. { eexists; split; [reflexivity|]. eapply wf_pos; eauto. lia. }
  destruct (b =? 70)%N. { eexists; split; [reflexivity|]. eapply wf_pos; eauto. lia. }
  eauto.
Qed.

Definition good (hist : list bytes) (a : act) : Prop :=
  match a with Go s => wf hist s | Stop (Line l) => no_nul l | Stop Eof => True end.
Lemma wf_search hist s m t i : wf hist s -> length t <= 255 -> wf hist (with_search m t i s).
Proof. intros (W & A & B & C) L. unfold wf. cbn. splits; auto. Qed.

Lemma ctrl_r_ok hist s : lines_ok hist -> wf hist s -> exists s', ctrl_r hist s = Ok s' /\ wf hist s'.
Proof.
  intros LO W. unfold ctrl_r.
  set (s1 := if e_search s then s else with_search true [] (length hist) s).
  assert (W1 : wf hist s1). { unfold s1. destruct (e_search s); auto. apply wf_search; auto. cbn. lia. }
  clearbody s1.
  match goal with |- context[search_back _ _ ?x] => set (n := x) end.
  assert (n <= length hist) by (unfold n; destruct (Nat.ltb_spec (length hist) (e_smatch s1)); lia).
  destruct (search_back_ok hist (e_sbuf s1) n) as [(i & -> & Hi & _)|(-> & _)]; auto; cbn [bind]; [|eauto].
  destruct (found_ok hist s1 i) as (l & _ & -> & W2); eauto. lia.
Qed.
Lemma search_key_ok hist c s : lines_ok hist -> wf hist s -> exists s', search_key hist c s = Ok s' /\ wf hist s'.
Proof.
  intros LO W. unfold search_key. destruct (c =? 7)%N.
  { eexists; split; [reflexivity|]. apply wf_search; auto. apply W. }
  destruct (negb (iscntrl c)); [|eauto].
  destruct (Nat.ltb_spec (length (e_sbuf s)) 255); [|eauto].
  destruct (Nat.ltb_spec 256 (length (e_sbuf s) + 2)); [lia|].
  set (s1 := with_search (e_search s) (e_sbuf s ++ [c]) (e_smatch s) s).
  assert (W1 : wf hist s1). { unfold s1. apply wf_search; auto. rewrite app_length. cbn. lia. }
  clearbody s1.
  destruct (search_back_ok hist (e_sbuf s1) (length hist)) as [(i & -> & Hi & _)|(-> & _)]; auto; cbn [bind]; [|eauto].
  destruct (found_ok hist s1 i) as (l & _ & -> & W2); eauto.
Qed.

Lemma key_ok hist c s : lines_ok hist -> wf hist s -> exists a, key hist c s = Ok a /\ good hist a.
Proof.
  intros LO W. pose proof W as ((t & H) & _). unfold key.
  destruct ((c =? 127)%N || (c =? 8)%N).
  { destruct (backspace_ok t s H) as (s' & -> & H' & _ & R & _). cbn [bind]. eexists; split; [reflexivity|]. cbn. eapply wf_same; eauto. }
  destruct ((c =? 13)%N || (c =? 10)%N).
  { rewrite (holds_read t s H). cbn [bind]. eexists; split; [reflexivity|]. cbn. apply H. }
  destruct (c =? 3)%N. { eexists; split; [reflexivity|]. constructor. }
  destruct (c =? 4)%N. { eexists; split; [reflexivity|]. destruct (e_len s =? 0); cbn; auto. }
  destruct (c =? 9)%N.
  { destruct (tab_ok t s H) as (w & _ & T). destruct (completion w) as [k|].
    - destruct (e_len s + length k <? e_size s - 1).
      + destruct T as (s' & -> & H' & _ & R & _). cbn [bind]. eexists; split; [reflexivity|]. cbn. eapply wf_same; eauto.
      + rewrite T. cbn [bind]. eexists; split; [reflexivity|]. exact W.
    - rewrite T. cbn [bind]. eexists; split; [reflexivity|]. exact W. }
  destruct (c =? 18)%N.
  { destruct (ctrl_r_ok hist s LO W) as (s' & -> & W'). cbn [bind]. eauto. }
  destruct (e_search s).
  { destruct (search_key_ok hist c s LO W) as (s' & -> & W'). cbn [bind]. eauto. }
  destruct (c =? 1)%N. { eexists; split; [reflexivity|]. cbn. eapply wf_pos; eauto. lia. }
  destruct (c =? 5)%N. { eexists; split; [reflexivity|]. cbn. eapply wf_pos; eauto. destruct H as (_ & _ & -> & _). lia. }
  destruct (c =? 12)%N. { eexists; split; [reflexivity|]. exact W. }
  destruct (c =? 21)%N.
  { destruct (kill_start_ok t s H) as (s' & -> & H' & _ & R & _). cbn [bind]. eexists; split; [reflexivity|]. cbn. eapply wf_same; eauto. }
  destruct (c =? 11)%N.
  { destruct (kill_end_ok t s H) as (s' & -> & H' & _ & R & _). cbn [bind]. eexists; split; [reflexivity|]. cbn. eapply wf_same; eauto. }
  destruct (c =? 14)%N. { eexists; split; [reflexivity|]. cbn. repeat constructor; discriminate. }
  destruct (negb (iscntrl c)) eqn:C.
  { destruct (insert_ok t s c H) as (s' & -> & H' & _ & R & _).
    - intros ->. discriminate.
    - cbn [bind]. eexists; split; [reflexivity|]. cbn. eapply wf_same; eauto. }
  eexists; split; [reflexivity|]. exact W.
Qed.

Lemma edit_eq hist input s : edit hist input s =
  match input with
  | [] => do l <- c_string (e_buf s); Ok (Line l, [])
  | c :: r =>
      if (c =? 27)%N then
        match r with
        | a :: b :: r' => do s <- escape hist a b s; edit hist r' s
        | _ => do l <- c_string (e_buf s); Ok (Line l, [])
        end
      else
        do a <- key hist c s;
        match a with
        | Go s => edit hist r s
        | Stop o => Ok (o, r)
        end
  end.
Proof. destruct input; reflexivity. Qed.

Lemma edit_ok hist : lines_ok hist -> forall n input s, length input <= n -> wf hist s ->
  exists o r, edit hist input s = Ok (o, r) /\ match o with Line l => no_nul l | Eof => True end /\
              exists used, input = used ++ r.
Proof.
  intros LO. induction n as [|n IH]; intros input s L W; rewrite edit_eq; pose proof W as ((t & H) & _).
  - destruct input; [|cbn in L; lia]. rewrite (holds_read t s H). cbn [bind]. do 2 eexists. splits; [reflexivity|apply H|exists []; reflexivity].
  - destruct input as [|c r].
    { rewrite (holds_read t s H). cbn [bind]. do 2 eexists. splits; [reflexivity|apply H|exists []; reflexivity]. }
    cbn [length] in L. destruct (c =? 27)%N.
    + assert (E : forall r, exists o r1, (do l <- c_string (e_buf s); Ok (Line l, [])) = Ok (o, r1) /\
         match o with Line l => no_nul l | Eof => True end /\ exists used : bytes, r = used ++ r1).
      { intros r0. rewrite (holds_read t s H). cbn [bind]. do 2 eexists. splits; [reflexivity|apply H|].
        exists r0. now rewrite app_nil_r. }
      destruct r as [|a [|b r']]; try apply E.
      destruct (escape_ok hist a b s LO W) as (s' & -> & W'). cbn [bind].
      destruct (IH r' s') as (o & r1 & -> & G & u & ->); auto. { cbn in L. lia. }
      exists o, r1. splits; auto. exists (c :: a :: b :: u). reflexivity.
    + destruct (key_ok hist c s LO W) as (a & -> & G). cbn [bind]. destruct a as [s'|o].
      * destruct (IH r s') as (o & r1 & -> & G1 & u & ->); auto. { lia. }
        exists o, r1. splits; auto. exists (c :: u). reflexivity.
      * exists o, r. splits; auto. exists [c]. reflexivity.
Qed.

(** ** The editor does what the abstract one does *)
Definition rel (hist : list bytes) (v : view) (s : ed) : Prop :=
  holds (v_text v) s /\ e_pos s = v_cur v /\ e_hidx s = v_at v /\ v_at v <= length hist /\ e_search s = false /\
  (v_at v < length hist -> e_saved s = Some (v_draft v)) /\ no_nul (v_draft v).

Lemma rel_init hist level : exists s, init hist level = Ok s /\ rel hist (start hist level) s /\ 1024 <= e_size s.
Proof.
  destruct (init_ok hist level) as (s & E & H & P & (F1 & F2 & F3 & F4) & S1). exists s. splits; auto.
  unfold rel, start; cbn. splits; auto; try lia. constructor.
Qed.
Lemma printable_cases c : printable c -> (c =? 27)%N = false /\ (c =? 127)%N || (c =? 8)%N = false /\ (c =? 13)%N || (c =? 10)%N = false /\
  (c =? 3)%N = false /\ (c =? 4)%N = false /\ (c =? 9)%N = false /\ (c =? 18)%N = false /\ (c =? 1)%N = false /\ (c =? 5)%N = false /\
  (c =? 12)%N = false /\ (c =? 21)%N = false /\ (c =? 11)%N = false /\ (c =? 14)%N = false /\ (c =? 7)%N = false /\ negb (iscntrl c) = true.
Proof.
  intros (A & B). splits; try (apply N.eqb_neq; lia); try (apply orb_false_iff; split; apply N.eqb_neq; lia).
  unfold iscntrl. apply negb_true_iff, orb_false_iff. split; [apply N.ltb_ge; lia|apply N.eqb_neq; lia].
Qed.
Lemma key_char hist c s : printable c -> e_search s = false -> key hist c s = do s <- insert c s; Ok (Go s).
Proof.
  intros P Q. destruct (printable_cases c P) as (E0 & E1 & E2 & E3 & E4 & E5 & E6 & E7 & E8 & E9 & E10 & E11 & E12 & _ & E13).
  unfold key. now rewrite E1, E2, E3, E4, E5, E6, Q, E7, E8, E9, E10, E11, E12, E13.
Qed.

Definition moves_in_history (k : keystroke) : Prop := k = Up \/ k = Down.
Lemma press_ok hist k v s rest : lines_ok hist -> rel hist v s -> typed k ->
  exists s', edit hist (sent k ++ rest) s = edit hist rest s' /\ rel hist (press hist k v) s' /\
             (~ moves_in_history k -> e_size s <= e_size s').
Proof.
  intros LO (H & P & A & Al & S0 & D & Nd) T.
  pose proof H as (_ & _ & L & Pl & _).
  assert (same : forall t s' p, holds t s' -> e_pos s' = p -> same_rest s s' -> rel hist (View t p (v_at v) (v_draft v)) s').
  { intros t s' p H' P' (R1 & R2 & R3 & R4 & R5). unfold rel; cbn. rewrite R1, R2, R3. splits; auto. }
  assert (pos : forall p, p <= length (v_text v) -> rel hist (View (v_text v) p (v_at v) (v_draft v)) (with_pos p s)).
  { intros p Hp. apply same; [|reflexivity|repeat split]. destruct H as (H1 & H2 & H3 & H4 & H5). unfold holds; cbn. splits; auto. }
  destruct k; cbn [sent app press]; rewrite edit_eq.
  - destruct (printable_cases c T) as (-> & _). rewrite key_char by auto.
    destruct (insert_ok (v_text v) s c H) as (s' & -> & H' & P' & R & Sz). { intros ->. destruct T. lia. }
    cbn [bind]. exists s'. splits; auto. rewrite P in *. apply same; auto.
  - change (27 =? 27)%N with true. cbv iota. unfold escape. change (negb (91 =? 91)%N) with false. cbn - [Nat.ltb with_pos rel Nat.sub].
    destruct (Nat.ltb_spec 0 (e_pos s)).
    + exists (with_pos (e_pos s - 1) s). splits; auto. rewrite <- P. apply pos. lia.
    + exists s. splits; auto. apply same; auto; [lia|apply same_refl].
  - change (27 =? 27)%N with true. cbv iota. unfold escape. change (negb (91 =? 91)%N) with false. cbn - [Nat.ltb with_pos rel Nat.sub Nat.min].
    destruct (Nat.ltb_spec (e_pos s) (e_len s)).
    + exists (with_pos (S (e_pos s)) s). splits; auto. rewrite Nat.min_l by lia. rewrite <- P. apply pos. lia.
    + exists s. splits; auto. rewrite Nat.min_r by lia. apply same; auto; [lia|apply same_refl].
  - change (1 =? 27)%N with false. cbv iota. unfold key. rewrite S0. cbn - [with_pos rel]. eexists. splits; [reflexivity| |auto]. apply pos. lia.
  - change (5 =? 27)%N with false. cbv iota. unfold key. rewrite S0. cbn - [with_pos rel]. eexists. splits; [reflexivity| |auto]. rewrite L. apply pos. lia.
  - change (127 =? 27)%N with false. cbv iota. unfold key. cbn - [backspace rel].
    destruct (backspace_ok (v_text v) s H) as (s' & -> & H' & P' & R & Sz). cbn [bind]. exists s'. splits; auto; [|lia].
    rewrite P in *. apply same; auto.
  - change (21 =? 27)%N with false. cbv iota. unfold key. rewrite S0. cbn - [kill_start rel].
    destruct (kill_start_ok (v_text v) s H) as (s' & -> & H' & P' & R & Sz). cbn [bind]. exists s'. splits; auto; [|lia].
    rewrite P in *. apply same; auto.
  - change (11 =? 27)%N with false. cbv iota. unfold key. rewrite S0. cbn - [kill_end rel].
    destruct (kill_end_ok (v_text v) s H) as (s' & -> & H' & P' & R & Sz). cbn [bind]. exists s'. splits; auto; [|lia].
    rewrite P in *. apply same; auto.
  - change (27 =? 27)%N with true. cbv iota. unfold escape. change (negb (91 =? 91)%N) with false.
    change (65 =? 65)%N with true. cbv iota. rewrite A.
    destruct (v_at v) as [|i] eqn:At.
    { cbn [Nat.ltb Nat.leb]. exists s. splits; auto. unfold rel. rewrite At. splits; auto. }
    destruct (Nat.ltb_spec 0 (S i)); [|lia].
    assert (nth_error hist i = Some (nth i hist [])) as Ni by (apply nth_error_nth'; lia).
    assert (no_nul (nth i hist [])) as Nn by (eapply lines_nth; eauto).
    destruct (Nat.eqb_spec (S i) (length hist)) as [E|E].
    + rewrite (holds_read _ s H). cbn [bind with_saved e_hidx]. rewrite A.
      replace (S i - 1) with i by lia. destruct (Nat.ltb_spec i (length hist)); [|lia]. rewrite Ni. cbn [bind].
      eexists. split; [reflexivity|]. split; [|intros M; exfalso; apply M; now left].
      unfold entry. cbn [v_draft]. rewrite app_nth1 by lia.
      unfold rel. cbn. splits; auto; try lia. { now apply (load_holds (nth i hist []) s). } apply H.
    + cbn [bind]. rewrite A. replace (S i - 1) with i by lia. destruct (Nat.ltb_spec i (length hist)); [|lia]. rewrite Ni. cbn [bind].
      eexists. split; [reflexivity|]. split; [|intros M; exfalso; apply M; now left].
      unfold entry. rewrite app_nth1 by lia.
      unfold rel. cbn. splits; auto; try lia. { now apply (load_holds (nth i hist []) s). } intros _. apply D. lia.
  - change (27 =? 27)%N with true. cbv iota. unfold escape. change (negb (91 =? 91)%N) with false.
    change (66 =? 65)%N with false. change (66 =? 66)%N with true. cbv iota. rewrite A.
    destruct (Nat.ltb_spec (v_at v) (length hist)).
    2:{ cbn [bind]. exists s. splits; auto. unfold rel. splits; auto. }
    destruct (Nat.eqb_spec (S (v_at v)) (length hist)) as [E|E]; cbn [bind].
    + eexists. split; [reflexivity|]. split; [|intros M; exfalso; apply M; now right].
      unfold entry. rewrite app_nth2, E, Nat.sub_diag by lia. cbn [nth].
      unfold with_hidx, load. cbn. rewrite D by lia. unfold rel. cbn. splits; auto; try lia.
      now apply (load_holds (v_draft v) s).
    + assert (nth_error hist (S (v_at v)) = Some (nth (S (v_at v)) hist [])) as Ni by (apply nth_error_nth'; lia).
      assert (no_nul (nth (S (v_at v)) hist [])) as Nn by (eapply lines_nth; eauto).
      rewrite Ni. cbn [bind]. eexists. split; [reflexivity|]. split; [|intros M; exfalso; apply M; now right].
      unfold entry. rewrite app_nth1 by lia. unfold rel. cbn - [nth]. splits; auto; try lia.
      { now apply (load_holds (nth (S (v_at v)) hist []) s). }
  - change (12 =? 27)%N with false. cbv iota. unfold key. rewrite S0. cbn - [rel]. exists s. splits; auto. unfold rel; splits; auto.
Qed.

Lemma presses_ok hist ks : lines_ok hist -> forall v s rest, rel hist v s -> Forall typed ks ->
  exists s', edit hist (flat_map sent ks ++ rest) s = edit hist rest s' /\ rel hist (presses hist ks v) s' /\
             (Forall (fun k => ~ moves_in_history k) ks -> e_size s <= e_size s').
Proof.
  intros LO. induction ks as [|k ks IH]; intros v s rest R T; cbn [flat_map app presses fold_left].
  - exists s. auto.
  - inversion T; subst. rewrite <- app_assoc.
    destruct (press_ok hist k v s (flat_map sent ks ++ rest) LO R H1) as (s1 & -> & R1 & Z1).
    destruct (IH (press hist k v) s1 rest R1 H2) as (s2 & -> & R2 & Z2). exists s2. splits; auto.
    intros F. inversion F; subst. specialize (Z1 H3). specialize (Z2 H4). lia.
Qed.
Lemma enter_ok hist v s rest : rel hist v s -> edit hist (13%N :: rest) s = Ok (Line (v_text v), rest).
Proof.
  intros (H & _). rewrite edit_eq. change (13 =? 27)%N with false. cbv iota. unfold key. cbn - [c_string].
  now rewrite (holds_read _ s H).
Qed.

(** ** Searching backwards *)
Definition greatest (hist : list bytes) (text : bytes) (n i : nat) : Prop :=
  i < n /\ hit hist text i /\ forall j, i < j < n -> ~ hit hist text j.
Lemma greatest_unique hist text n i j : greatest hist text n i -> greatest hist text n j -> i = j.
Proof.
  intros (A & B & C) (D & E & F). destruct (Nat.lt_trichotomy i j) as [H|[H|H]]; auto; exfalso.
  - apply (C j); auto.
  - apply (F i); auto.
Qed.
Fixpoint chain (hist : list bytes) (text : bytes) (n k j : nat) : Prop :=
  match k with
  | 0 => greatest hist text n j
  | S k' => exists i, greatest hist text n i /\ chain hist text i k' j
  end.
Lemma hits_snoc text x : forall l k, hits text (l ++ [x]) k ->
  (occurs text x /\ exists k', k = S k' /\ hits text l k') \/ (~ occurs text x /\ hits text l k).
Proof.
  induction l as [|a l IH]; intros k H; cbn in H; inversion H; subst.
  - inversion H4; subst. left. split; auto. eexists; split; [reflexivity|constructor].
  - inversion H4; subst. right. split; auto.
  - destruct (IH _ H4) as [(O & k' & -> & Q)|(O & Q)].
    + left. split; auto. eexists. split; [reflexivity|]. now constructor.
    + right. split; auto. now constructor.
  - destruct (IH _ H4) as [(O & k' & -> & Q)|(O & Q)].
    + left. split; auto. eexists. split; [reflexivity|]. now apply hits_no.
    + right. split; auto. now apply hits_no.
Qed.
Lemma hit_at hist text i l : nth_error hist i = Some l -> (hit hist text i <-> occurs text l).
Proof. intros E. unfold hit. split; [intros (l' & E' & O); congruence|eauto]. Qed.
Lemma chain_ok hist text l older : occurs text l -> forall mid newer k, hist = older ++ l :: mid ++ newer -> hits text mid k ->
  chain hist text (length older + 1 + length mid) k (length older).
Proof.
  intros O mid. induction mid as [|x mid IH] using rev_ind; intros newer k E H.
  - inversion H; subst. cbn [length chain]. unfold greatest. splits; try lia.
    exists l. split; auto. rewrite nth_error_app2, Nat.sub_diag by lia. reflexivity.
  - rewrite app_length. cbn [length].
    assert (Ex : nth_error hist (length older + 1 + length mid) = Some x).
    { rewrite E, nth_error_app2 by lia. replace (length older + 1 + length mid - length older) with (S (length mid)) by lia.
      cbn [nth_error]. rewrite <- app_assoc, nth_error_app2, Nat.sub_diag by lia. reflexivity. }
    rewrite <- app_assoc in E. cbn [app] in E.
    apply hits_snoc in H as [(Ox & k' & -> & Q)|(Ox & Q)]; specialize (IH _ _ E Q).
    + cbn [chain]. exists (length older + 1 + length mid). split; auto.
      unfold greatest. splits; try lia. now apply (proj2 (hit_at hist text _ x Ex)).
    + assert (G : forall i, greatest hist text (length older + 1 + length mid) i ->
                            greatest hist text (length older + 1 + (length mid + 1)) i).
      { intros i (A & B & C). unfold greatest. splits; auto; [lia|]. intros j J.
        destruct (Nat.eq_dec j (length older + 1 + length mid)) as [->|]; [|apply C; lia].
        intros Q1. apply (proj1 (hit_at hist text _ x Ex)) in Q1. contradiction. }
      destruct k; cbn [chain] in *; auto. destruct IH as (i & A & B). eauto.
Qed.

Definition searching (hist : list bytes) (text : bytes) (s : ed) : Prop :=
  wf hist s /\ e_search s = true /\ e_sbuf s = text.
Definition stands (hist : list bytes) (i : nat) (s : ed) : Prop :=
  e_smatch s = i /\ i < length hist /\ holds (nth i hist []) s.
Lemma search_found hist text n s : lines_ok hist -> searching hist text s -> n <= length hist ->
  exists s', (do f <- search_back hist text n; match f with Some i => found_entry hist i s | None => Ok s end) = Ok s' /\
             searching hist text s' /\ forall i, greatest hist text n i -> stands hist i s'.
Proof.
  intros LO (W & S1 & T) Hn. destruct (search_back_ok hist text n Hn) as [(i & -> & G)|(-> & G)]; cbn [bind].
  - destruct (found_ok hist s i LO W) as (l & E & -> & W'). { lia. }
    eexists. split; [reflexivity|]. split; [unfold searching; cbn; auto|].
    intros j Gj. assert (j = i) as -> by (eapply greatest_unique; eauto).
    unfold stands. cbn. splits; [auto|lia|]. replace (nth i hist []) with l by (symmetry; now apply nth_error_nth). apply (load_holds l s). eapply lines_nth; eauto.
  - exists s. splits; auto. { unfold searching; auto. } intros i (A & B & _). exfalso. apply (G i); auto.
Qed.
Lemma key_r hist s : key hist 18 s = do s <- ctrl_r hist s; Ok (Go s).
Proof. reflexivity. Qed.
Lemma first_r hist s rest : lines_ok hist -> wf hist s -> e_search s = false ->
  exists s', edit hist (18%N :: rest) s = edit hist rest s' /\ searching hist [] s' /\
             forall i, greatest hist [] (length hist) i -> stands hist i s'.
Proof.
  intros LO W S0.
  destruct (search_found hist [] (length hist) (with_search true [] (length hist) s) LO) as (s' & E & Q & G); auto.
  { split; [|cbn; auto]. apply wf_search; auto. cbn. lia. }
  exists s'. splits; auto. rewrite edit_eq. change (18 =? 27)%N with false. cbv iota. rewrite key_r.
  replace (ctrl_r hist s) with (Ok s'); [reflexivity|].
  unfold ctrl_r. rewrite S0. cbn [with_search e_smatch e_sbuf]. rewrite Nat.ltb_irrefl. symmetry. exact E.
Qed.
Lemma next_r hist text s i rest : lines_ok hist -> searching hist text s -> stands hist i s ->
  exists s', edit hist (18%N :: rest) s = edit hist rest s' /\ searching hist text s' /\
             forall j, greatest hist text i j -> stands hist j s'.
Proof.
  intros LO Q (M & Hi & _).
  destruct (search_found hist text i s LO Q) as (s' & E & Q' & G). { lia. }
  exists s'. splits; auto. rewrite edit_eq. change (18 =? 27)%N with false. cbv iota. rewrite key_r.
  replace (ctrl_r hist s) with (Ok s'); [reflexivity|].
  unfold ctrl_r. destruct Q as (W & S1 & T). rewrite S1, T, M. destruct (Nat.ltb_spec (length hist) i); [lia|]. symmetry. exact E.
Qed.
Lemma next_char hist text s c rest : lines_ok hist -> searching hist text s -> printable c -> length text < 255 ->
  exists s', edit hist (c :: rest) s = edit hist rest s' /\ searching hist (text ++ [c]) s' /\
             forall i, greatest hist (text ++ [c]) (length hist) i -> stands hist i s'.
Proof.
  intros LO Q P L. destruct (printable_cases c P) as (E0 & E1 & E2 & E3 & E4 & E5 & E6 & E7 & E8 & E9 & E10 & E11 & E12 & E14 & E13).
  destruct Q as (W & S1 & T).
  destruct (search_found hist (text ++ [c]) (length hist) (with_search (e_search s) (text ++ [c]) (e_smatch s) s) LO) as (s' & E & Q & G); auto.
  { split; [|cbn; auto]. apply wf_search; auto. rewrite app_length. cbn. lia. }
  exists s'. splits; auto. rewrite edit_eq, E0. unfold key. rewrite E1, E2, E3, E4, E5, E6, S1.
  replace (search_key hist c s) with (Ok s'); [reflexivity|].
  unfold search_key. rewrite E14, E13, T. destruct (Nat.ltb_spec (length text) 255); [|lia].
  destruct (Nat.ltb_spec 256 (length text + 2)); [lia|]. cbn [with_search e_sbuf]. symmetry. exact E.
Qed.
Lemma type_text hist : lines_ok hist -> forall more text s rest, searching hist text s ->
  (forall i, greatest hist text (length hist) i -> stands hist i s) -> Forall printable more -> length (text ++ more) <= 255 ->
  exists s', edit hist (more ++ rest) s = edit hist rest s' /\ searching hist (text ++ more) s' /\
             forall i, greatest hist (text ++ more) (length hist) i -> stands hist i s'.
Proof.
  intros LO. induction more as [|c more IH]; intros text s rest Q G P L; cbn [app].
  - exists s. rewrite app_nil_r. auto.
  - inversion P; subst. rewrite app_length in L. cbn in L.
    destruct (next_char hist text s c (more ++ rest) LO Q H1) as (s1 & -> & Q1 & G1). { lia. }
    destruct (IH (text ++ [c]) s1 rest Q1 G1 H2) as (s2 & E & Q2 & G2). { rewrite !app_length. cbn. lia. }
    rewrite <- app_assoc in Q2, G2. cbn [app] in Q2, G2. exists s2. auto.
Qed.
Lemma again_r hist text : lines_ok hist -> forall k s i j rest, searching hist text s -> stands hist i s -> chain hist text (i) k j ->
  exists s', edit hist (repeat 18%N (S k) ++ rest) s = edit hist rest s' /\ searching hist text s' /\ stands hist j s'.
Proof.
  intros LO. induction k as [|k IH]; intros s i j rest Q St C.
  - cbn [repeat app]. destruct (next_r hist text s i rest LO Q St) as (s1 & -> & Q1 & G). exists s1. auto.
  - change (repeat 18%N (S (S k)) ++ rest) with (18%N :: (repeat 18%N (S k) ++ rest)).
    destruct C as (i1 & A & B).
    destruct (next_r hist text s i (repeat 18%N (S k) ++ rest) LO Q St) as (s1 & -> & Q1 & G).
    apply (IH s1 i1 j rest); auto.
Qed.
Lemma rel_wf hist v s : rel hist v s -> e_sbuf s = [] -> (v_at v = length hist -> forall d, e_saved s = Some d -> no_nul d) -> wf hist s.
Proof.
  intros (H & P & A & Al & S0 & D & Nd) B Sv. unfold wf. splits; eauto; try lia; [|rewrite B; cbn; lia].
  intros d E. destruct (Nat.eq_dec (v_at v) (length hist)); eauto. rewrite D in E by lia. congruence.
Qed.

(** ** Tab *)
Lemma tab_fits hist v s w k rest : rel hist v s -> word_before (v_text v) (v_cur v) w -> w <> [] -> length w < 255 -> only_name names w (w ++ k) ->
  length (v_text v) + length k < e_size s - 1 ->
  exists s', edit hist (9%N :: rest) s = edit hist rest s' /\
    rel hist (View (firstn (v_cur v) (v_text v) ++ k ++ skipn (v_cur v) (v_text v)) (v_cur v + length k) (v_at v) (v_draft v)) s'.
Proof.
  intros (H & P & A & Al & S0 & D & Nd) W Wn Wl O Fit.
  rewrite edit_eq. change (9 =? 27)%N with false. cbv iota. unfold key. cbn - [tab].
  destruct (tab_ok (v_text v) s H) as (w' & W' & T). rewrite P in W'.
  assert (w' = w) as -> by (eapply word_unique; eauto).
  assert (completion w = Some k) as C.
  { unfold completion. destruct w as [|c w]; [congruence|]. destruct (Nat.leb_spec 255 (length (c :: w))); [lia|].
    rewrite (only_candidates _ _ O). f_equal. now apply skipn_exact. }
  rewrite C in T. pose proof H as (_ & _ & L & _).
  destruct (Nat.ltb_spec (e_len s + length k) (e_size s - 1)); [|lia].
  destruct T as (s' & -> & H' & P' & (R1 & R2 & R3 & R4 & R5) & _). cbn [bind]. exists s'. split; auto.
  rewrite P in *. unfold rel; cbn. rewrite R1, R2, R3. splits; auto.
Qed.
Lemma tab_full hist t s rest : holds t s -> e_size s = length t + 1 -> edit hist (9%N :: rest) s = edit hist rest s.
Proof.
  intros H Sz. rewrite edit_eq. change (9 =? 27)%N with false. cbv iota. unfold key. cbn - [tab].
  destruct (tab_ok t s H) as (w & _ & T). pose proof H as (_ & _ & L & _).
  destruct (completion w) as [k|].
  - destruct (Nat.ltb_spec (e_len s + length k) (e_size s - 1)); [lia|]. now rewrite T.
  - now rewrite T.
Qed.
