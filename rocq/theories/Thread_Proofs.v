(** Proofs about threads: every interleaving is simulated by a serial execution. *)
From Verif Require Import Common Thread_Model Thread_Spec.
Local Open Scope nat_scope.

Lemma nth_replace {A} n k (a : A) l : nth_error (replace n a l) k = if k =? n then option_map (fun _ => a) (nth_error l k) else nth_error l k.
Proof.
  revert n k. induction l as [|b l IH]; intros [|n] [|k]; cbn [replace nth_error Nat.eqb option_map]; try reflexivity.
  - now destruct (k =? n).
  - apply IH.
Qed.
Lemma length_replace {A} n (a : A) l : length (replace n a l) = length l.
Proof. revert n. induction l as [|b l IH]; intros [|n]; cbn; auto. Qed.
Lemma nth_same {A} i (a b : A) l : nth_error l i = Some b -> nth_error (replace i a l) i = Some a.
Proof. intros H. now rewrite nth_replace, Nat.eqb_refl, H. Qed.
Lemma nth_other {A} i k (a : A) l : k <> i -> nth_error (replace i a l) k = nth_error l k.
Proof. intros H. rewrite nth_replace. destruct (Nat.eqb_spec k i); [contradiction|reflexivity]. Qed.
Lemma nth_lt {A} i (l : list A) a : nth_error l i = Some a -> i < length l.
Proof. intros H. apply nth_error_Some. congruence. Qed.
Lemma nth_snoc {A} k (l : list A) a b : nth_error (l ++ [a]) k = Some b -> nth_error l k = Some b \/ (k = length l /\ b = a).
Proof.
  intros H. destruct (Nat.lt_ge_cases k (length l)) as [L|L]; [left; now rewrite nth_error_app1 in H|].
  rewrite nth_error_app2 in H by assumption. destruct (k - length l) as [|q] eqn:E; [|destruct q; discriminate]. injection H as <-. right. split; [lia|reflexivity].
Qed.
Lemma nth_old {A} k (l : list A) a b : nth_error l k = Some b -> nth_error (l ++ [a]) k = Some b.
Proof. intros H. rewrite nth_error_app1; [assumption|]. eapply nth_lt; eauto. Qed.
Lemma nth_new {A} (l : list A) a : nth_error (l ++ [a]) (length l) = Some a.
Proof. rewrite nth_error_app2, Nat.sub_diag by lia. reflexivity. Qed.
Lemma others_false {A} (f : A -> bool) : forall l i, (forall j t, j <> i -> nth_error l j = Some t -> f t = false) -> existsb f (others i l) = false.
Proof.
  induction l as [|b l IH]; intros i H; [now destruct i|]. destruct i as [|i]; cbn [others existsb].
  - assert (G : forall t, In t l -> f t = false).
    { intros t I. apply In_nth_error in I as [n I]. apply (H (S n) t); [lia|exact I]. }
    clear -G. induction l as [|c l IH]; [reflexivity|]. cbn [existsb]. rewrite (G c) by now left. apply IH. intros t I. apply G. now right.
  - rewrite (H 0 b) by (auto; lia). apply IH. intros j t J N. apply (H (S j) t); [lia|exact N].
Qed.

Section Proofs.
Variable value : Type.
Notation code := (code value). Notation block := (block value). Notation thread := (thread value). Notation state := (state value).
Notation script := (script value). Notation section := (section value). Notation world := (world value).

Lemma nth_put i q l k : nth_error (@put value i q l) k =
  if k =? i then match nth_error l k with Some (_, j) => Some (q, j) | None => None end else nth_error l k.
Proof.
  unfold put. destruct (Nat.eqb_spec k i) as [->|N].
  - destruct (nth_error l i) as [[p j]|] eqn:E; [eapply nth_same; eauto|exact E].
  - destruct (nth_error l i) as [[p j]|]; [now apply nth_other|reflexivity].
Qed.
Lemma length_put i q l : length (@put value i q l) = length l.
Proof. unfold put. destruct (nth_error l i) as [[p j]|]; [apply length_replace|reflexivity]. Qed.

(** Where a thread is in its script *)
Inductive kind := Plain | Holding (a b : section) | Ending | Dying (d : bool).
Definition own := list (nat * block).
Definition created (p : nat) (k : option nat -> script) : option nat -> code :=
  fun ret => match ret with None => Free p (script_code (k None)) | Some h => script_code (k (Some h)) end.
Definition leaving (k : value -> script) : value -> code := fun v => mutex_unlock (script_code (k v)).
Inductive pos : script -> code -> own -> kind -> Prop :=
| p_script q : pos q (script_code q) [] Plain
| p_lock s k : pos (Critical s k) (MLock (Some 0) (section_code s (leaving k))) [] Plain
| p_in s k s' : pos (Critical s k) (section_code s' (leaving k)) [] (Holding s s')
| p_unlock s k v : pos (Critical s k) (MUnlock (Some 0) (script_code (k v))) [] (Holding s (Ret v))
| p_copy w k p : pos (Spawn w k) (Memcpy p (script_code w) (Create p (created p k))) [(p, Raw)] Plain
| p_create w k p : pos (Spawn w k) (Create p (created p k)) [(p, Closure (script_code w))] Plain
| p_free q p c : pos q (Free p (script_code q)) [(p, Closure c)] Plain
| p_destroy k : pos (Release k) (MDestroy (Some 0) (Free 0 (SetHandle None (script_code k)))) [] Ending
| p_dying1 k : pos k (Free 0 (SetHandle None (script_code k))) [] (Dying true)
| p_dying2 k : pos k (SetHandle None (script_code k)) [] (Dying false).
Inductive trel : script -> thread -> own -> kind -> Prop :=
| t_top q c o kd j ca : pos q c o kd -> trel q (mkth c [] j ca) o kd
| t_start q p j ca : trel q (mkth (trampoline p) [] j ca) [(p, Closure (script_code q))] Plain
| t_run q c o kd p b j ca : pos q c o kd -> trel q (mkth c [Free p Exit] j ca) ((p, Closure b) :: o) kd.

Record table (info : list (own * kind)) (o : nat -> nat) (hp : list block) (ths : list thread) (cr : list (script * bool)) : Prop := mktable {
  len1 : length info = length ths;
  len2 : length cr = length ths;
  rows : forall i t q j w kd, nth_error ths i = Some t -> nth_error cr i = Some (q, j) -> nth_error info i = Some (w, kd) ->
    trel q t w kd /\ reaped t = j /\ NoDup (map fst w) /\ (forall p b, In (p, b) w -> o p = i /\ p <> 0 /\ nth_error hp p = Some b);
  leaks : forall p b, nth_error hp p = Some b -> b = Freed \/ p = 0 \/ exists i w kd, nth_error info i = Some (w, kd) /\ In p (map fst w)
}.

Lemma table_update info o hp ths cr i t q j w kd t' q' w' kd' hp' :
  table info o hp ths cr -> nth_error ths i = Some t -> nth_error cr i = Some (q, j) -> nth_error info i = Some (w, kd) ->
  trel q' t' w' kd' -> reaped t' = reaped t -> NoDup (map fst w') ->
  (forall p b, In (p, b) w' -> p <> 0 /\ nth_error hp' p = Some b /\ (In p (map fst w) \/ length hp <= p)) ->
  (forall p, p <> 0 -> ~ In p (map fst w) -> p < length hp -> nth_error hp' p = nth_error hp p) ->
  (forall p b, p <> 0 -> In p (map fst w) \/ length hp <= p -> nth_error hp' p = Some b -> b = Freed \/ In p (map fst w')) ->
  table (replace i (w', kd') info) (fun p => if p <? length hp then o p else i) hp' (replace i t' ths) (put i q' cr).
Proof.
  intros [L1 L2 R Lk] Ht Hq Hi T' Rp ND W' Hh Hl. destruct (R _ _ _ _ _ _ Ht Hq Hi) as (T & Rj & N & W).
  split.
  - rewrite !length_replace. assumption.
  - rewrite length_put, length_replace. assumption.
  - intros k tk qk jk wk kdk Kt Kq Ki. rewrite nth_replace in Kt. rewrite nth_replace in Ki. rewrite nth_put in Kq. destruct (Nat.eqb_spec k i) as [->|Nk].
    + rewrite Ht in Kt. rewrite Hq in Kq. rewrite Hi in Ki. cbn [option_map] in *. injection Kt as <-. injection Kq as <- <-. injection Ki as <- <-.
      splits; auto; [congruence|]. intros p b I. destruct (W' p b I) as (W1 & W2 & W3). splits; auto.
      destruct (Nat.ltb_spec p (length hp)); [|reflexivity]. destruct W3 as [W3|]; [|lia].
      apply in_map_iff in W3 as ([p' b'] & <- & I'). apply (W p' b' I').
    + destruct (R _ _ _ _ _ _ Kt Kq Ki) as (Q1 & Q2 & Q3 & Q4). splits; auto. intros p b I. destruct (Q4 p b I) as (Q5 & Q6 & Q7).
      pose proof (nth_lt _ _ _ Q7) as Lp. destruct (Nat.ltb_spec p (length hp)); [|lia]. splits; auto. rewrite Hh; auto.
      intros I'. apply in_map_iff in I' as ([p' b'] & <- & I'). destruct (W p' b' I') as (E & _). cbn in Q5. congruence.
  - intros p b H. destruct (Nat.eq_dec p 0) as [->|Np]; [right; now left|].
    destruct (in_dec Nat.eq_dec p (map fst w)) as [I|I].
    + destruct (Hl p b Np (or_introl I) H) as [|K]; [now left|]. right; right. exists i, w', kd'. split; [eapply nth_same; eauto|assumption].
    + destruct (Nat.lt_ge_cases p (length hp)) as [Lp|Lp].
      * rewrite Hh in H by assumption. destruct (Lk p b H) as [|[|(k & wk & kdk & Hk & Ik)]]; auto.
        destruct (Nat.eq_dec k i) as [->|Nk]; [rewrite Hi in Hk; injection Hk as <- <-; contradiction|].
        right; right. exists k, wk, kdk. split; [now rewrite nth_other|assumption].
      * destruct (Hl p b Np (or_intror Lp) H) as [|K]; [now left|]. right; right. exists i, w', kd'. split; [eapply nth_same; eauto|assumption].
Qed.

(** The mutex *)
Definition mutex_ok (m : nat -> value) (hd : option nat) (b0 : option block) (w : world) (info : list (own * kind)) : Prop :=
  if gone w then
    m = vars w /\
    ((hd = None /\ b0 = Some Freed /\ forall i o kd, nth_error info i = Some (o, kd) -> kd = Plain) \/
     (exists i o d, nth_error info i = Some (o, Dying d) /\ hd = Some 0 /\ b0 = Some (if d then Raw else Freed) /\
        forall k o kd p j, k <> i -> nth_error info k = Some (o, kd) -> nth_error (crew w) k = Some (p, j) -> kd = Plain /\ p = End))
  else
    hd = Some 0 /\ exists ow, b0 = Some (Mutex ow) /\
    (forall i o kd, nth_error info i = Some (o, kd) -> match kd with Plain | Ending => ow <> Some i | Holding _ _ => ow = Some i | Dying _ => False end) /\
    match ow with
    | None => m = vars w
    | Some i => exists o a b, nth_error info i = Some (o, Holding a b) /\ perform a (vars w) = perform b m
    end.
Definition inv (s : state) (w : world) : Prop :=
  exists info o, table info o (heap s) (threads s) (crew w) /\ mutex_ok (mem s) (handle s) (nth_error (heap s) 0) w info.

Lemma mutex_neutral m hd b0 v cr g info i w w' q j q' : mutex_ok m hd b0 (mkworld v cr g) info -> length cr = length info ->
  nth_error info i = Some (w, Plain) -> nth_error cr i = Some (q, j) -> (q = End -> q' = End) ->
  mutex_ok m hd b0 (mkworld v (put i q' cr) g) (replace i (w', Plain) info).
Proof.
  intros M L Hi Hq E. unfold mutex_ok in *. cbn [gone vars crew] in *. destruct g.
  - destruct M as [M1 M2]. split; [assumption|]. destruct M2 as [(Q1 & Q2 & Q3)|(k & o & d & Q1 & Q2 & Q3 & Q4)].
    + left. splits; auto. intros n o kd. rewrite nth_replace. destruct (n =? i); [|apply Q3].
      destruct (nth_error info n); [|discriminate]. now intros [= _ <-].
    + right. assert (Nk : k <> i) by (intros ->; congruence). exists k, o, d. splits; auto; [now rewrite nth_other|].
      intros n on kd p jn N. rewrite nth_replace, nth_put. destruct (Nat.eqb_spec n i) as [->|Ni]; [|now apply Q4].
      rewrite Hi, Hq. cbn [option_map]. intros [= <- <-] [= <- <-]. split; [reflexivity|]. apply E. now apply (Q4 i w Plain q j).
  - destruct M as [M1 (ow & M2 & M3 & M4)]. split; [assumption|]. exists ow. splits; auto.
    + intros n o kd. rewrite nth_replace. destruct (Nat.eqb_spec n i) as [->|]; [|apply M3]. rewrite Hi. cbn. intros [= _ <-]. now apply (M3 i w Plain).
    + destruct ow as [n|]; [|assumption]. destruct M4 as (o & a & b & Q1 & Q2). exists o, a, b. split; [|assumption].
      rewrite nth_other; [assumption|]. intros ->. congruence.
Qed.

Lemma pos_quiet q c o kd : pos q c o kd -> (forall a b, kd <> Holding a b) -> forall x w ps j ca, accesses x w (mkth c ps j ca) = false.
Proof.
  intros P N x w ps j ca. destruct P; try reflexivity; try (exfalso; eapply N; reflexivity). destruct q; reflexivity.
Qed.
Lemma trel_quiet q t o kd x w : trel q t o kd -> (forall a b, kd <> Holding a b) -> accesses x w t = false.
Proof. intros T N. destruct T; [eapply pos_quiet; eauto|reflexivity|eapply pos_quiet; eauto]. Qed.
Lemma ended_end q t o kd : trel q t o kd -> ended t = true -> q = End.
Proof.
  intros T E. destruct T as [q c o kd j ca P|q p j ca|q c o kd p b j ca P].
  - destruct P; try discriminate E; [destruct q; try discriminate E; reflexivity|]. unfold ended in E. cbn [now pops] in E.
    destruct s' as [v| |]; discriminate E.
  - discriminate E.
  - unfold ended in E. cbn [now pops] in E. destruct c; discriminate E.
Qed.

Lemma put_same i q j cr : nth_error cr i = Some (q, j) -> @put value i q cr = cr.
Proof.
  intros H. unfold put. rewrite H. revert i H. induction cr as [|a cr IH]; intros [|i] H; try discriminate.
  - injection H as ->. reflexivity.
  - cbn [replace]. f_equal. now apply IH.
Qed.
Lemma table_spawn info o hp ths cr i t q j w kd t' q' w' p c0 q0 :
  table info o hp ths cr -> nth_error ths i = Some t -> nth_error cr i = Some (q, j) -> nth_error info i = Some (w, kd) ->
  trel q' t' w' Plain -> reaped t' = reaped t -> NoDup (map fst w') -> c0 = Closure (script_code q0) ->
  In (p, c0) w -> (forall a, In a w' -> In a w) -> ~ In p (map fst w') -> (forall x, In x (map fst w) -> x = p \/ In x (map fst w')) ->
  table (replace i (w', Plain) info ++ [([(p, c0)], Plain)]) (fun x => if x =? p then length ths else o x) hp
    (replace i t' ths ++ [mkth (trampoline p) [] false false]) (put i q' cr ++ [(q0, false)]).
Proof.
  intros [L1 L2 R Lk] Ht Hq Hi T' Rp ND -> Ip Sub Np Cov. destruct (R _ _ _ _ _ _ Ht Hq Hi) as (T & Rj & N & W).
  pose proof (nth_lt _ _ _ Ht) as Li. destruct (W _ _ Ip) as (Wp1 & Wp2 & Wp3).
  split.
  - rewrite !app_length, !length_replace. cbn. lia.
  - rewrite !app_length, length_put, length_replace. cbn. lia.
  - intros k tk qk jk wk kdk Kt Kq Ki. apply nth_snoc in Kt. apply nth_snoc in Kq. apply nth_snoc in Ki.
    rewrite length_replace in Kt. rewrite length_put in Kq. rewrite length_replace in Ki.
    destruct Kt as [Kt|[Kt ->]].
    + pose proof (nth_lt _ _ _ Kt) as Lk'. rewrite length_replace in Lk'.
      destruct Kq as [Kq|[]]; [|lia]. destruct Ki as [Ki|[]]; [|lia].
      rewrite nth_replace in Kt. rewrite nth_replace in Ki. rewrite nth_put in Kq. destruct (Nat.eqb_spec k i) as [->|Nk].
      * rewrite Ht in Kt. rewrite Hq in Kq. rewrite Hi in Ki. cbn [option_map] in *. injection Kt as <-. injection Kq as <- <-. injection Ki as <- <-.
        splits; auto; [congruence|]. intros x b I. destruct (Nat.eqb_spec x p) as [->|Nx]; [exfalso; apply Np; apply in_map_iff; now exists (p, b)|].
        apply W. now apply Sub.
      * destruct (R _ _ _ _ _ _ Kt Kq Ki) as (Q1 & Q2 & Q3 & Q4). splits; auto. intros x b I. destruct (Q4 x b I) as (Q5 & Q6 & Q7).
        destruct (Nat.eqb_spec x p) as [->|Nx]; [congruence|auto].
    + destruct Kq as [Kq|[_ Kq]]; [apply nth_lt in Kq; rewrite length_put in Kq; lia|]. destruct Ki as [Ki|[_ Ki]]; [apply nth_lt in Ki; rewrite length_replace in Ki; lia|].
      injection Kq as -> ->. injection Ki as -> ->. splits; auto.
      * apply t_start.
      * repeat constructor. intros [].
      * intros x b [E|[]]. injection E as <- <-. rewrite Nat.eqb_refl. splits; auto.
  - intros x b H. destruct (Lk x b H) as [|[|(k & wk & kdk & Hk & Ik)]]; auto. right; right.
    destruct (Nat.eq_dec k i) as [->|Nk].
    + rewrite Hi in Hk. injection Hk as <- <-. destruct (Cov x Ik) as [->|Ix].
      * exists (length info), [(p, Closure (script_code q0))], Plain. split; [|now left]. rewrite <- (length_replace i (w', Plain) info). apply nth_new.
      * exists i, w', Plain. split; [|assumption]. apply nth_old. eapply nth_same; eauto.
    + exists k, wk, kdk. split; [|assumption]. apply nth_old. now rewrite nth_other.
Qed.
Lemma table_reap info o hp ths cr h u qh jh : table info o hp ths cr -> nth_error ths h = Some u -> nth_error cr h = Some (qh, jh) ->
  table info o hp (replace h (mkth (now u) (pops u) true (cancelled u)) ths) (replace h (qh, true) cr).
Proof.
  intros [L1 L2 R Lk] Hu Hq. split; [now rewrite length_replace|now rewrite !length_replace| |exact Lk].
  intros k tk qk jk wk kdk Kt Kq Ki. rewrite nth_replace in Kt. rewrite nth_replace in Kq. destruct (Nat.eqb_spec k h) as [->|Nk].
  - rewrite Hu in Kt. rewrite Hq in Kq. cbn [option_map] in *. injection Kt as <-. injection Kq as <- <-.
    destruct (R _ _ _ _ _ _ Hu Hq Ki) as (Q1 & Q2 & Q3 & Q4). splits; auto. inversion Q1; subst; now constructor.
  - now apply R.
Qed.
Lemma mutex_reap m hd b0 v cr g info h jh : mutex_ok m hd b0 (mkworld v cr g) info -> nth_error cr h = Some (End, jh) ->
  mutex_ok m hd b0 (mkworld v (replace h (End, true) cr) g) info.
Proof.
  unfold mutex_ok. cbn [gone vars crew]. destruct g; [|auto]. intros [M1 M2] Hh. split; [assumption|].
  destruct M2 as [M2|(k & o & d & Q1 & Q2 & Q3 & Q4)]; [now left|]. right. exists k, o, d. splits; auto.
  intros n on kd p jn N Hn. rewrite nth_replace. destruct (Nat.eqb_spec n h) as [->|]; [|now apply (Q4 n on)].
  rewrite Hh. cbn. intros [= <- <-]. split; [|reflexivity]. now apply (Q4 h on kd End jh).
Qed.
Lemma mutex_spawn m hd b0 v cr g info i w w' q j q' q0 o0 : mutex_ok m hd b0 (mkworld v cr g) info ->
  nth_error info i = Some (w, Plain) -> nth_error cr i = Some (q, j) -> q <> End ->
  mutex_ok m hd b0 (mkworld v (put i q' cr ++ [(q0, false)]) g) (replace i (w', Plain) info ++ [(o0, Plain)]).
Proof.
  intros M Hi Hq Nq. unfold mutex_ok in *. cbn [gone vars crew] in *. destruct g.
  - destruct M as [M1 M2]. split; [assumption|]. destruct M2 as [(Q1 & Q2 & Q3)|(k & o & d & Q1 & Q2 & Q3 & Q4)].
    + left. splits; auto. intros n o kd H. apply nth_snoc in H as [H|[_ [= _ ->]]]; [|reflexivity].
      rewrite nth_replace in H. destruct (n =? i); [|now apply (Q3 n o)]. destruct (nth_error info n); [|discriminate]. now injection H as _ <-.
    + exfalso. apply Nq. apply (Q4 i w Plain q j); auto. intros ->. congruence.
  - destruct M as [M1 (ow & M2 & M3 & M4)]. split; [assumption|]. exists ow. splits; auto.
    + intros n o kd H. apply nth_snoc in H as [H|[E [= _ ->]]].
      * rewrite nth_replace in H. destruct (Nat.eqb_spec n i) as [->|]; [|now apply (M3 n o)]. rewrite Hi in H. injection H as _ <-. now apply (M3 i w Plain).
      * subst n. rewrite length_replace. intros ->. destruct M4 as (o' & a & b & Q1 & _). apply nth_lt in Q1. lia.
    + destruct ow as [n|]; [|assumption]. destruct M4 as (o & a & b & Q1 & Q2). exists o, a, b. split; [|assumption].
      apply nth_old. rewrite nth_other; [assumption|]. intros ->. congruence.
Qed.

(** A step of a thread inside its script *)
Definition good (s : state) (w : world) (r : res (option state)) : Prop :=
  r = Ok None \/ exists s', r = Ok (Some s') /\ (inv s' w \/ exists w', serial w w' /\ inv s' w').

Section Step.
Variables (s : state) (v : nat -> value) (cr : list (script * bool)) (g : bool).
Variables (info : list (own * kind)) (o : nat -> nat).
Hypothesis T : table info o (heap s) (threads s) cr.
Hypothesis M : mutex_ok (mem s) (handle s) (nth_error (heap s) 0) (mkworld v cr g) info.
Hypothesis Ok' : ~ mistake (mkworld v cr g).
Variables (i : nat) (c : code) (ps : list code) (j ca : bool) (q : script) (jq : bool) (w0 : own) (w : own) (kd : kind).
Hypothesis Ht : nth_error (threads s) i = Some (mkth c ps j ca).
Hypothesis Hq : nth_error cr i = Some (q, jq).
Hypothesis Hi : nth_error info i = Some (w0 ++ w, kd).
Hypothesis Up : forall q' c' o' kd', pos q' c' o' kd' -> trel q' (mkth c' ps j ca) (w0 ++ o') kd'.

Lemma nd : NoDup (map fst (w0 ++ w)).
Proof using T Ht Hq Hi. apply (rows _ _ _ _ _ T _ _ _ _ _ _ Ht Hq Hi). Qed.
Lemma owned p b : In (p, b) (w0 ++ w) -> p <> 0 /\ nth_error (heap s) p = Some b.
Proof using T Ht Hq Hi. intros H. now apply (rows _ _ _ _ _ T _ _ _ _ _ _ Ht Hq Hi). Qed.
(** A step that keeps the blocks it owns *)
Lemma same_table q' c' kd' hp' : pos q' c' w kd' -> (forall p, p <> 0 -> nth_error hp' p = nth_error (heap s) p) ->
  table (replace i (w0 ++ w, kd') info) (fun p => if p <? length (heap s) then o p else i) hp' (replace i (mkth c' ps j ca) (threads s)) (put i q' cr).
Proof using T Ht Hq Hi Up.
  intros P H. eapply table_update; eauto.
  - apply nd.
  - intros p b I. destruct (owned p b I) as [O1 O2]. splits; auto; [rewrite H; auto|]. left. apply in_map_iff. now exists (p, b).
  - intros p b N [I|I] E; [now right|]. rewrite H in E by assumption. apply nth_lt in E. lia.
Qed.
Lemma plain_step q' c' : kd = Plain -> pos q' c' w Plain -> (q = End -> q' = End) ->
  inv (mkst (mem s) (heap s) (handle s) (replace i (mkth c' ps j ca) (threads s))) (mkworld v (put i q' cr) g).
Proof using T M Ht Hq Hi Up.
  intros K P E. eexists. eexists. cbn [heap threads crew mem handle]. split; [apply same_table; [exact P|reflexivity]|].
  pose proof Hi as Hi'. rewrite K in Hi'. eapply mutex_neutral; eauto. rewrite (len2 _ _ _ _ _ T). symmetry. apply (len1 _ _ _ _ _ T).
Qed.
Lemma live : kd <> Plain \/ q <> End -> g = true -> (exists d, kd = Dying d) \/ (handle s = None /\ kd = Plain).
Proof using M Hi Hq Ht.
  intros H G. unfold mutex_ok in M. rewrite G in M. cbn [gone] in M. destruct M as [_ [(Q1 & _ & Q3)|(n & on & d & Q1 & Q2 & Q3 & Q4)]].
  - right. split; [assumption|]. eapply Q3; eauto.
  - destruct (Nat.eq_dec i n) as [->|N]; [rewrite Hi in Q1; injection Q1 as _ ->; left; now exists d|].
    destruct (Q4 i (w0 ++ w) kd q jq N Hi Hq) as [-> ->]. destruct H; congruence.
Qed.

End Step.

Lemma pos_step s v cr g info o i c ps j ca q jq w0 w kd ok :
  table info o (heap s) (threads s) cr -> mutex_ok (mem s) (handle s) (nth_error (heap s) 0) (mkworld v cr g) info -> ~ mistake (mkworld v cr g) ->
  nth_error (threads s) i = Some (mkth c ps j ca) -> nth_error cr i = Some (q, jq) -> nth_error info i = Some (w0 ++ w, kd) ->
  (forall q' c' o' kd', pos q' c' o' kd' -> trel q' (mkth c' ps j ca) (w0 ++ o') kd') ->
  pos q c w kd -> c <> Exit -> good s (mkworld v cr g) (step s i ok).
Proof.
  intros T M Ok' Ht Hq Hi Up P NE. unfold step. rewrite Ht. cbn [now pops reaped cancelled].
  pose proof (nd _ _ _ _ T _ _ _ _ _ _ _ _ _ _ Ht Hq Hi) as nd.
  pose proof (owned _ _ _ _ T _ _ _ _ _ _ _ _ _ _ Ht Hq Hi) as owned.
  pose proof (same_table _ _ _ _ T _ _ _ _ _ _ _ _ _ _ Ht Hq Hi Up) as same_table.
  pose proof (plain_step _ _ _ _ _ _ T M _ _ _ _ _ _ _ _ _ _ Ht Hq Hi Up) as plain_step.
  pose proof (live _ _ _ _ _ M _ _ _ _ _ _ _ _ _ _ Ht Hq Hi) as live.
  assert (Stay : forall c', kd = Plain -> pos q c' w Plain ->
    good s (mkworld v cr g) (Ok (Some (mkst (mem s) (heap s) (handle s) (replace i (mkth c' ps j ca) (threads s)))))).
  { intros c' K P'. right. eexists. split; [reflexivity|]. left. rewrite <- (put_same _ _ _ _ Hq). now apply plain_step. }
  assert (Go : forall q' c', kd = Plain -> pos q' c' w Plain -> q <> End -> serial (mkworld v cr g) (mkworld v (put i q' cr) g) ->
    good s (mkworld v cr g) (Ok (Some (mkst (mem s) (heap s) (handle s) (replace i (mkth c' ps j ca) (threads s)))))).
  { intros q' c' K P' N S. right. eexists. split; [reflexivity|]. right. eexists. split; [exact S|]. apply plain_step; auto. congruence. }
  destruct P as [q|sec k|sec k sec'|sec k u|wk k p|wk k p|q p b|k|k|k].
  - (* at a statement of the script *)
    destruct q as [|sec k|wk k|h k|k]; cbn [script_code] in *.
    + congruence.
    + unfold mutex_lock. destruct g eqn:G.
      { exfalso. apply Ok'. eapply m_gone; eauto. }
      apply Stay; [reflexivity|]. unfold mutex_ok in M. cbn [gone] in M. destruct M as [Hd _]. rewrite Hd. apply p_lock.
    + unfold thread_spawn. destruct ok.
      * right. eexists. split; [reflexivity|]. left. eexists. eexists. cbn [heap threads crew mem handle]. split.
        -- rewrite <- (put_same _ _ _ _ Hq). eapply table_update with (w' := w0 ++ [(length (heap s), Raw)]) (kd' := Plain) (w := w0 ++ []); eauto.
           ++ apply Up. exact (p_copy wk k (length (heap s))).
           ++ rewrite map_app. cbn [map fst]. pose proof nd as N. rewrite app_nil_r in N. apply NoDup_Add with (a := length (heap s)) (l := map fst w0).
              { rewrite <- (app_nil_r (map fst w0)) at 1. apply Add_app. }
              split; [assumption|]. intros I. apply in_map_iff in I as ([x b] & E & I). cbn in E. subst x.
              destruct (owned (length (heap s)) b) as [_ O]; [rewrite app_nil_r; assumption|]. apply nth_lt in O. lia.
           ++ intros p b I. apply in_app_iff in I as [I|[E|[]]].
              ** destruct (owned p b) as [O1 O2]; [rewrite app_nil_r; assumption|]. splits; auto; [now apply nth_old|].
                 left. rewrite app_nil_r. apply in_map_iff. now exists (p, b).
              ** injection E as <- <-. splits; [|apply nth_new|right; lia]. intros E.
                 unfold mutex_ok in M. destruct (heap s); [|discriminate E]. cbn in M. destruct g; [destruct M as [_ [(_ & M' & _)|(? & ? & ? & _ & _ & M' & _)]]; discriminate|].
                 destruct M as (_ & ? & M' & _). discriminate.
           ++ intros p N I L. now apply nth_error_app1.
           ++ intros p b N I E. apply nth_snoc in E as [E|[-> ->]].
              ** destruct I as [I|I]; [|apply nth_lt in E; lia]. right. rewrite map_app, in_app_iff. left. now rewrite app_nil_r in I.
              ** right. rewrite map_app, in_app_iff. right. now left.
        -- rewrite <- (put_same _ _ _ _ Hq). eapply mutex_neutral with (w := w0 ++ []); eauto.
           2:{ rewrite (len2 _ _ _ _ _ T). symmetry. apply (len1 _ _ _ _ _ T). }
           destruct (heap s) eqn:Hh; [|exact M]. exfalso. unfold mutex_ok in M. cbn in M.
           destruct g; [destruct M as [_ [(_ & M' & _)|(? & ? & ? & _ & _ & M' & _)]]; discriminate|]. destruct M as (_ & ? & M' & _). discriminate.
      * apply Go with (q' := k None); [reflexivity|apply p_script|discriminate|]. apply (s_fail _ (mkworld v cr g) i wk k jq Hq).
    + unfold thread_join. destruct (Nat.eqb_spec h i) as [->|Nh].
      { apply Go with (q' := k false); [reflexivity|apply p_script|discriminate|]. apply (s_self _ (mkworld v cr g) i k jq Hq). }
      destruct (nth_error (threads s) h) as [u|] eqn:Hu.
      2:{ exfalso. apply Ok'. eapply m_handle; eauto. cbn [crew]. apply nth_error_None. rewrite (len2 _ _ _ _ _ T). now apply nth_error_None. }
      assert (X : exists qh jh wh kh, nth_error cr h = Some (qh, jh) /\ nth_error info h = Some (wh, kh)).
      { pose proof (nth_lt _ _ _ Hu) as L. destruct (nth_error cr h) as [[qh jh]|] eqn:E1; [|apply nth_error_None in E1; rewrite (len2 _ _ _ _ _ T) in E1; lia].
        destruct (nth_error info h) as [[wh kh]|] eqn:E2; [|apply nth_error_None in E2; rewrite (len1 _ _ _ _ _ T) in E2; lia]. eauto 6. }
      destruct X as (qh & jh & wh & kh & E1 & E2). destruct (rows _ _ _ _ _ T _ _ _ _ _ _ Hu E1 E2) as (Th & Rh & _).
      destruct (reaped u) eqn:Ru.
      { exfalso. apply Ok'. eapply m_twice; eauto. cbn [crew]. rewrite E1, <- Rh. reflexivity. }
      destruct (ended u) eqn:Eu; [|now left]. subst jh. pose proof (ended_end _ _ _ _ Th Eu) as ->.
      right. eexists. split; [reflexivity|]. right. eexists. split; [apply (s_join _ (mkworld v cr g) i h k jq Hq E1)|].
      assert (I1 : inv (mkst (mem s) (heap s) (handle s) (replace i (mkth (script_code (k true)) ps j ca) (threads s))) (mkworld v (put i (k true) cr) g)).
      { apply plain_step; [reflexivity|apply p_script|discriminate]. }
      destruct I1 as (info' & o' & T' & M'). cbn [heap threads crew mem handle] in T', M'. exists info', o'. cbn [heap threads crew mem handle]. split.
      * eapply table_reap; [exact T'|now rewrite nth_other|]. rewrite nth_put. destruct (Nat.eqb_spec h i); [contradiction|exact E1].
      * eapply mutex_reap; [exact M'|]. rewrite nth_put. destruct (Nat.eqb_spec h i); [contradiction|exact E1].
    + unfold mutex_free. destruct (handle s) as [p0|] eqn:Hd.
      * destruct g eqn:G.
        { assert (NE' : Release k <> End) by discriminate. destruct (live (or_intror NE') eq_refl) as [[d D]|[D _]]; [discriminate D|congruence]. }
        assert (p0 = 0) as ->. { unfold mutex_ok in M. cbn [gone] in M. destruct M as [M' _]. congruence. }
        right. eexists. split; [reflexivity|]. left. eexists. eexists. cbn [heap threads crew mem handle]. split.
        { rewrite <- (put_same _ _ _ _ Hq). apply same_table; [apply p_destroy|reflexivity]. }
        unfold mutex_ok in *. cbn [gone vars] in *. destruct M as [_ (ow & Hb & Ex & Mo)]. split; [reflexivity|]. exists ow. splits; auto.
        -- intros n on kn. rewrite nth_replace. destruct (Nat.eqb_spec n i) as [->|N]; [|apply Ex].
           rewrite Hi. cbn. intros [= <- <-]. apply (Ex i _ _ Hi).
        -- destruct ow as [n|]; [|assumption]. destruct Mo as (o2 & a & b & Q1 & Q2). exists o2, a, b. split; [|assumption].
           rewrite nth_other; [assumption|]. intros ->. congruence.
      * destruct g eqn:G; [|unfold mutex_ok in M; cbn [gone] in M; destruct M; congruence].
        apply Go with (q' := k); [reflexivity|apply p_script|discriminate|].
        apply (s_release _ (mkworld v cr true) i k jq Hq).
  - (* locking *)
    destruct g eqn:G.
    { exfalso. apply Ok'. eapply m_gone; eauto. }
    pose proof M as M'. unfold mutex_ok in M'. cbn [gone vars] in M'. destruct M' as (Hd & ow & Hb & Ex & Mo). rewrite Hb.
    destruct ow as [n|]; [now left|]. right. eexists. split; [reflexivity|]. left.
    eexists. eexists. cbn [heap threads crew mem handle]. split.
    + rewrite <- (put_same _ _ _ _ Hq). apply same_table; [apply p_in with (s' := sec)|]. intros p N. now apply nth_other.
    + unfold mutex_ok. cbn [gone vars]. split; [assumption|]. exists (Some i). splits.
      * eapply nth_same; eauto.
      * intros n on kn. rewrite nth_replace. destruct (Nat.eqb_spec n i) as [->|N]; [rewrite Hi; cbn; intros [= <- <-]; reflexivity|].
        intros H. specialize (Ex n on kn H). destruct kn; [congruence|discriminate Ex|congruence|destruct Ex].
      * exists (w0 ++ []), sec, sec. split; [eapply nth_same; eauto|]. now rewrite Mo.
  - (* in the critical section *)
    assert (G : g = false).
    { destruct g eqn:G; [|reflexivity]. assert (NE' : Holding sec sec' <> Plain) by discriminate. destruct (live (or_introl NE') eq_refl) as [[d D]|[_ D]]; discriminate D. }
    pose proof M as M'. unfold mutex_ok in M'. rewrite G in M'. cbn [gone vars] in M'. destruct M' as (Hd & ow & Hb & Ex & Mo).
    assert (ow = Some i) as -> by (apply (Ex i _ _ Hi)). destruct Mo as (o2 & a & b & E & Pf). rewrite Hi in E. injection E as <- <- <-.
    assert (Quiet : forall x w, existsb (accesses x w) (others i (threads s)) = false).
    { intros x w'. apply others_false. intros n t N Hn. pose proof (nth_lt _ _ _ Hn) as L.
      destruct (nth_error cr n) as [[qn jn]|] eqn:E1; [|apply nth_error_None in E1; rewrite (len2 _ _ _ _ _ T) in E1; lia].
      destruct (nth_error info n) as [[wn kn]|] eqn:E2; [|apply nth_error_None in E2; rewrite (len1 _ _ _ _ _ T) in E2; lia].
      destruct (rows _ _ _ _ _ T _ _ _ _ _ _ Hn E1 E2) as (Tn & _). eapply trel_quiet; [exact Tn|]. intros a b ->. specialize (Ex n wn _ E2). cbn in Ex. congruence. }
    assert (Adv : forall m' c' b', pos (Critical sec k) c' [] (Holding sec b') -> perform sec v = perform b' m' ->
      inv (mkst m' (heap s) (handle s) (replace i (mkth c' ps j ca) (threads s))) (mkworld v cr g)).
    { intros m' c' b' P' E. eexists. eexists. cbn [heap threads crew mem handle]. split.
      - rewrite <- (put_same _ _ _ _ Hq). apply same_table; [exact P'|reflexivity].
      - unfold mutex_ok. rewrite G. cbn [gone vars]. split; [assumption|]. exists (Some i). splits; [assumption| |].
        + intros n on kn. rewrite nth_replace. destruct (Nat.eqb_spec n i) as [->|N]; [rewrite Hi; cbn; intros [= <- <-]; reflexivity|apply Ex].
        + exists (w0 ++ []), sec, b'. split; [eapply nth_same; eauto|exact E]. }
    destruct sec' as [u|x f|x u sec']; cbn [section_code leaving] in *.
    + unfold leaving, mutex_unlock. right. eexists. split; [reflexivity|]. left. apply Adv with (b' := Ret u); [rewrite Hd; apply p_unlock|exact Pf].
    + rewrite Quiet. right. eexists. split; [reflexivity|]. left. apply Adv with (b' := f (mem s x)); [apply p_in|exact Pf].
    + rewrite Quiet. right. eexists. split; [reflexivity|]. left. apply Adv with (b' := sec'); [apply p_in|exact Pf].
  - (* unlocking *)
    assert (G : g = false).
    { destruct g eqn:G; [|reflexivity]. assert (NE' : Holding sec (Ret u) <> Plain) by discriminate. destruct (live (or_introl NE') eq_refl) as [[d D]|[_ D]]; discriminate D. }
    pose proof M as M'. unfold mutex_ok in M'. rewrite G in M'. cbn [gone vars] in M'. destruct M' as (Hd & ow & Hb & Ex & Mo).
    assert (ow = Some i) as -> by (apply (Ex i _ _ Hi)). destruct Mo as (o2 & a & b & E & Pf). rewrite Hi in E. injection E as <- <- <-.
    rewrite Hb, Nat.eqb_refl. right. eexists. split; [reflexivity|]. right. eexists. split; [apply (s_critical _ (mkworld v cr g) i sec k jq Hq G)|].
    cbn [perform vars crew] in *. rewrite Pf. cbn [fst snd]. eexists. eexists. cbn [heap threads crew mem handle gone]. split.
    + apply same_table; [apply p_script|]. intros p N. now apply nth_other.
    + unfold mutex_ok. cbn [gone vars]. rewrite G. split; [assumption|]. exists None. splits.
      * eapply nth_same; eauto.
      * intros n on kn. rewrite nth_replace. destruct (Nat.eqb_spec n i) as [->|N]; [rewrite Hi; cbn; intros [= <- <-]; discriminate|].
        intros H. specialize (Ex n on kn H). destruct kn; [discriminate|congruence|discriminate|destruct Ex].
      * reflexivity.
  - (* the copy of the closure *)
    destruct (owned p Raw) as [O1 O2]; [apply in_app_iff; right; now left|]. rewrite O2.
    right. eexists. split; [reflexivity|]. left. eexists. eexists. cbn [heap threads crew mem handle]. split.
    + rewrite <- (put_same _ _ _ _ Hq). pose proof nd as N. eapply table_update with (w' := w0 ++ [(p, Closure (script_code wk))]) (kd' := Plain) (w := w0 ++ [(p, Raw)]); eauto.
      * apply Up. exact (p_create wk k p).
      * rewrite map_app in *. exact N.
      * intros x b I. apply in_app_iff in I as [I|[E|[]]].
        -- destruct (owned x b) as [X1 X2]; [apply in_app_iff; now left|]. splits; auto; [|left; rewrite map_app, in_app_iff; left; apply in_map_iff; now exists (x, b)].
           rewrite nth_other; [assumption|]. intros ->. rewrite map_app in N. cbn [map fst] in N.
           apply NoDup_remove_2 in N. apply N. rewrite app_nil_r. apply in_map_iff. now exists (p, b).
        -- injection E as <- <-. splits; auto; [eapply nth_same; eauto|left; rewrite map_app, in_app_iff; right; now left].
      * intros x X1 X2 X3. apply nth_other. intros ->. apply X2. rewrite map_app, in_app_iff. right. now left.
      * intros x b X1 [X2|X2] E; [right; rewrite map_app in *; exact X2|]. apply nth_lt in E. rewrite length_replace in E. lia.
    + rewrite nth_other by auto. rewrite <- (put_same _ _ _ _ Hq). eapply mutex_neutral; eauto.
      rewrite (len2 _ _ _ _ _ T). symmetry. apply (len1 _ _ _ _ _ T).
  - (* starting the thread *)
    pose proof nd as N. rewrite map_app in N. cbn [map fst] in N. apply NoDup_remove in N as [N1 N2]. rewrite app_nil_r in N1, N2.
    destruct ok.
    + right. eexists. split; [reflexivity|]. right. eexists. split; [apply (s_spawn _ (mkworld v cr g) i wk k jq Hq)|].
      cbn [vars crew gone]. rewrite (len2 _ _ _ _ _ T).
      eexists. eexists. cbn [heap threads crew mem handle]. split.
      * eapply table_spawn with (w' := w0 ++ []) (w := w0 ++ [(p, Closure (script_code wk))]); eauto.
        -- apply Up. cbn [created]. apply p_script.
        -- now rewrite app_nil_r.
        -- apply in_app_iff. right. now left.
        -- intros a I. rewrite app_nil_r in I. apply in_app_iff. now left.
        -- now rewrite app_nil_r.
        -- intros x I. rewrite app_nil_r. rewrite map_app, in_app_iff in I. destruct I as [I|[<-|[]]]; auto.
      * eapply mutex_spawn; eauto. discriminate.
    + apply Go with (q' := k None); [reflexivity|apply p_free|discriminate|]. apply (s_fail _ (mkworld v cr g) i wk k jq Hq).
  - (* freeing the copy *)
    destruct (owned p (Closure b)) as [O1 O2]; [apply in_app_iff; right; now left|]. rewrite O2.
    pose proof nd as N. rewrite map_app in N. cbn [map fst] in N. apply NoDup_remove in N as [N1 N2]. rewrite app_nil_r in N1, N2.
    right. eexists. split; [reflexivity|]. left. eexists. eexists. cbn [heap threads crew mem handle]. split.
    + rewrite <- (put_same _ _ _ _ Hq). eapply table_update with (w' := w0 ++ []) (kd' := Plain) (w := w0 ++ [(p, Closure b)]); eauto.
      * apply Up. apply p_script.
      * now rewrite app_nil_r.
      * intros x c' I. rewrite app_nil_r in I. destruct (owned x c') as [X1 X2]; [apply in_app_iff; now left|]. splits; auto.
        -- rewrite nth_other; [assumption|]. intros ->. apply N2. apply in_map_iff. now exists (p, c').
        -- left. rewrite map_app, in_app_iff. left. apply in_map_iff. now exists (x, c').
      * intros x X1 X2 X3. apply nth_other. intros ->. apply X2. rewrite map_app, in_app_iff. right. now left.
      * intros x c' X1 [X2|X2] E; [|apply nth_lt in E; rewrite length_replace in E; lia].
        rewrite map_app, in_app_iff in X2. destruct X2 as [X2|[<-|[]]]; [right; now rewrite app_nil_r|]. cbn [fst] in E.
        left. erewrite nth_same in E by eauto. congruence.
    + rewrite nth_other by auto. rewrite <- (put_same _ _ _ _ Hq). eapply mutex_neutral; eauto.
      rewrite (len2 _ _ _ _ _ T). symmetry. apply (len1 _ _ _ _ _ T).
  - (* destroying the mutex *)
    assert (G : g = false).
    { destruct g eqn:G; [|reflexivity]. assert (NE' : Ending <> Plain) by discriminate. destruct (live (or_introl NE') eq_refl) as [[d D]|[_ D]]; discriminate D. }
    pose proof M as M'. unfold mutex_ok in M'. rewrite G in M'. cbn [gone vars crew] in M'. destruct M' as (Hd & ow & Hb & Ex & Mo).
    assert (Alone : forall n on kn p jn, n <> i -> nth_error info n = Some (on, kn) -> nth_error cr n = Some (p, jn) -> p = End /\ kn = Plain).
    { intros n on kn p jn N E1 E2. assert (p = End) as ->.
      { destruct p; [reflexivity| | | |]; exfalso; apply Ok'; (eapply m_early; [exact Hq|exact G|exact N|exact E2|discriminate]). }
      split; [reflexivity|]. pose proof (nth_lt _ _ _ E1) as L. rewrite (len1 _ _ _ _ _ T) in L.
      destruct (nth_error (threads s) n) as [t|] eqn:E3; [|apply nth_error_None in E3; lia].
      destruct (rows _ _ _ _ _ T _ _ _ _ _ _ E3 E2 E1) as (Tn & _). specialize (Ex n on kn E1).
      inversion Tn as [? ? ? ? ? ? P|? ? ? ?|? ? ? ? ? ? ? ? P]; subst; try reflexivity; inversion P; subst; try reflexivity; contradiction. }
    assert (ow = None) as ->.
    { destruct ow as [n|]; [|reflexivity]. destruct Mo as (o2 & a & b & Q1 & Q2). destruct (Nat.eq_dec n i) as [->|N]; [congruence|].
      pose proof (nth_lt _ _ _ Q1) as L. destruct (nth_error cr n) as [[p jn]|] eqn:E2; [|apply nth_error_None in E2; rewrite (len2 _ _ _ _ _ T), <- (len1 _ _ _ _ _ T) in E2; lia].
      destruct (Alone n o2 _ p jn N Q1 E2) as [_ D]. discriminate D. }
    rewrite Hb. right. eexists. split; [reflexivity|]. right. eexists. split; [apply (s_release _ (mkworld v cr g) i k jq Hq)|].
    cbn [vars crew gone]. eexists. eexists. cbn [heap threads crew mem handle]. split.
    + apply same_table; [apply p_dying1|]. intros p N. now apply nth_other.
    + unfold mutex_ok. cbn [gone vars crew]. split; [assumption|]. right. exists i, (w0 ++ []), true. splits; auto.
      * eapply nth_same; eauto.
      * eapply nth_same; eauto.
      * intros n on kn p jn N. rewrite nth_other by assumption. rewrite nth_put. destruct (Nat.eqb_spec n i); [contradiction|].
        intros E1 E2. destruct (Alone n on kn p jn N E1 E2). auto.
  - (* freeing it *)
    assert (G : g = true).
    { destruct g eqn:G; [reflexivity|]. unfold mutex_ok in M. cbn [gone] in M. destruct M as (_ & ow & _ & Ex & _). destruct (Ex i _ _ Hi). }
    pose proof M as M'. unfold mutex_ok in M'. rewrite G in M'. cbn [gone vars crew] in M'. destruct M' as (Mv & [(_ & _ & Q)|(n & on & d & Q1 & Q2 & Q3 & Q4)]).
    { discriminate (Q i _ _ Hi). }
    assert (n = i) as ->. { destruct (Nat.eq_dec i n) as [|N]; [congruence|]. destruct (Q4 i _ _ _ _ N Hi Hq) as [D _]. discriminate D. }
    rewrite Hi in Q1. injection Q1 as <- <-. rewrite Q3. right. eexists. split; [reflexivity|]. left. eexists. eexists. cbn [heap threads crew mem handle]. split.
    + rewrite <- (put_same _ _ _ _ Hq). apply same_table; [apply p_dying2|]. intros p N. now apply nth_other.
    + unfold mutex_ok. rewrite G. cbn [gone vars crew]. split; [assumption|]. right. exists i, (w0 ++ []), false. splits; auto.
      * eapply nth_same; eauto.
      * eapply nth_same; eauto.
      * intros n on kn p jn N. rewrite nth_other by assumption. now apply (Q4 n on).
  - (* forgetting its handle *)
    assert (G : g = true).
    { destruct g eqn:G; [reflexivity|]. unfold mutex_ok in M. cbn [gone] in M. destruct M as (_ & ow & _ & Ex & _). destruct (Ex i _ _ Hi). }
    pose proof M as M'. unfold mutex_ok in M'. rewrite G in M'. cbn [gone vars crew] in M'. destruct M' as (Mv & [(_ & _ & Q)|(n & on & d & Q1 & Q2 & Q3 & Q4)]).
    { discriminate (Q i _ _ Hi). }
    assert (n = i) as ->. { destruct (Nat.eq_dec i n) as [|N]; [congruence|]. destruct (Q4 i _ _ _ _ N Hi Hq) as [D _]. discriminate D. }
    rewrite Hi in Q1. injection Q1 as <- <-. right. eexists. split; [reflexivity|]. left. eexists. eexists. cbn [heap threads crew mem handle]. split.
    + rewrite <- (put_same _ _ _ _ Hq). apply same_table; [apply p_script|reflexivity].
    + unfold mutex_ok. rewrite G. cbn [gone vars crew]. split; [assumption|]. left. splits; auto.
      intros n on kn. rewrite nth_replace. destruct (Nat.eqb_spec n i) as [->|N]; [rewrite Hi; cbn; now intros [= _ <-]|].
      intros E1. pose proof (nth_lt _ _ _ E1) as L. destruct (nth_error cr n) as [[p jn]|] eqn:E2; [|apply nth_error_None in E2; rewrite (len2 _ _ _ _ _ T), <- (len1 _ _ _ _ _ T) in E2; lia].
      now apply (Q4 n on kn p jn).
Qed.

Lemma step_sim s w i ok : inv s w -> ~ mistake w -> good s w (step s i ok).
Proof.
  intros (info & o & T & M) N. destruct w as [v cr g]. cbn [crew] in T.
  destruct (nth_error (threads s) i) as [t|] eqn:Ht; [|left; unfold step; now rewrite Ht].
  pose proof (nth_lt _ _ _ Ht) as L.
  destruct (nth_error cr i) as [[q jq]|] eqn:Hq; [|apply nth_error_None in Hq; rewrite (len2 _ _ _ _ _ T) in Hq; lia].
  destruct (nth_error info i) as [[w kd]|] eqn:Hi; [|apply nth_error_None in Hi; rewrite (len1 _ _ _ _ _ T) in Hi; lia].
  destruct (rows _ _ _ _ _ T _ _ _ _ _ _ Ht Hq Hi) as (Tr & Rj & ND & W).
  assert (Dec : forall c : code, c = Exit \/ c <> Exit) by (intros c; destruct c; auto; right; discriminate).
  destruct Tr as [q c w kd j ca P|q p j ca|q c w kd p b j ca P].
  - destruct (Dec c) as [->|NE]; [left; unfold step; rewrite Ht; reflexivity|].
    eapply pos_step with (w0 := []); eauto. intros. now constructor.
  - right. unfold step. rewrite Ht. cbn [now trampoline pops reaped cancelled].
    destruct (W p (Closure (script_code q)) (or_introl eq_refl)) as (_ & Np & ->). eexists. split; [reflexivity|]. left.
    exists (replace i ([(p, Closure (script_code q))], Plain) info). eexists. cbn [heap threads crew mem handle]. rewrite <- (put_same _ _ _ _ Hq). split.
    + eapply table_update; eauto.
      * apply t_run. apply p_script.
      * intros x b I. destruct (W x b I) as (_ & W2 & W3). splits; auto. left. apply in_map_iff. now exists (x, b).
      * intros x b X [I|I] E; [now right|]. apply nth_lt in E. lia.
    + eapply mutex_neutral; eauto. rewrite (len2 _ _ _ _ _ T). symmetry. apply (len1 _ _ _ _ _ T).
  - destruct (Dec c) as [->|NE].
    + assert (q = End /\ w = [] /\ kd = Plain) as (-> & -> & ->).
      { clear -P. remember Exit as c eqn:E. destruct P as [q|sec k|sec k sec'|sec k u|wk k p|wk k p|q p b|k|k|k]; try discriminate E; [destruct q; try discriminate E; auto|destruct sec'; discriminate E]. }
      right. unfold step. rewrite Ht. cbn [now pops reaped cancelled]. eexists. split; [reflexivity|]. left.
      exists (replace i ([(p, Closure b)], Plain) info). eexists. cbn [heap threads crew mem handle]. rewrite <- (put_same _ _ _ _ Hq). split.
      * eapply table_update; eauto.
        -- apply t_top. exact (p_free End p b).
        -- intros x b' I. destruct (W x b' I) as (_ & W2 & W3). splits; auto. left. apply in_map_iff. now exists (x, b').
        -- intros x b' X [I|I] E; [now right|]. apply nth_lt in E. lia.
      * eapply mutex_neutral; eauto. rewrite (len2 _ _ _ _ _ T). symmetry. apply (len1 _ _ _ _ _ T).
    + eapply pos_step with (w0 := [(p, Closure b)]) (info := info); eauto; [exact Hi|]. intros. now constructor.
Qed.

Lemma serials_trans w0 w1 w2 : serials w0 w1 -> @serials value w1 w2 -> serials w0 w2.
Proof. intros H. induction 1 as [|w1 w2 w3 H1 IH H2]; [assumption|]. exact (s_more _ _ _ _ (IH H) H2). Qed.
Lemma run_sim l : forall s w, inv s w -> (forall w', serials w w' -> ~ mistake w') ->
  exists s' w', run s l = Ok s' /\ serials w w' /\ inv s' w'.
Proof.
  induction l as [|[i ok] l IH]; intros s w I C; cbn [run]; [exists s, w; splits; auto; constructor|].
  destruct (step_sim s w i ok I) as [->|(s1 & -> & H)]; [apply C; constructor| |]; cbn [bind]; [now apply IH|].
  destruct H as [H|(w1 & S1 & H)]; [now apply IH|].
  destruct (IH s1 w1 H) as (s' & w' & Q1 & Q2 & Q3).
  { intros w' S. apply C. eapply serials_trans; [|exact S]. econstructor; [constructor|exact S1]. }
  exists s', w'. splits; auto. eapply serials_trans; [|exact Q2]. econstructor; [constructor|exact S1].
Qed.
(** The start *)
Lemma start_inv m p : inv (mkst m [Mutex None] (Some 0) [mkth (script_code p) [] false false]) (mkworld m [(p, false)] false).
Proof.
  exists [([], Plain)], (fun _ => 0). cbn [heap threads crew mem handle]. split.
  - split; [reflexivity|reflexivity| |].
    + intros [|i] t q j w kd Ht Hq Hi; [|destruct i; discriminate]. injection Ht as <-. injection Hq as <- <-. injection Hi as <- <-.
      splits; [constructor; constructor|reflexivity|constructor|intros ? ? []].
    + intros [|x] b H; [right; now left|destruct x; discriminate].
  - unfold mutex_ok. cbn [gone vars nth_error]. split; [reflexivity|]. exists None. splits; auto.
    intros [|i] o kd H; [injection H as <- <-; discriminate|destruct i; discriminate].
Qed.
(** No thread can go on *)
Lemma stuck_sim s w : inv s w -> (forall i ok, step s i ok = Ok None) ->
  forall i t, nth_error (threads s) i = Some t ->
  ended t = true \/ exists h k u, now t = PJoin h k /\ h <> i /\ nth_error (threads s) h = Some u /\ ended u = false.
Proof.
  intros (info & o & T & M) Stk i t Ht. destruct w as [v cr g]. cbn [crew] in *.
  assert (Hold : forall c ps jj ca n a b q o', nth_error (threads s) n = Some (mkth c ps jj ca) -> pos q c o' (Holding a b) -> False).
  { intros c ps jj ca n a b q o' Hn P. pose proof (Stk n true) as S1. unfold step in S1. rewrite Hn in S1. cbn [now pops reaped cancelled] in S1.
    remember (Holding a b) as kd eqn:E. destruct P as [q|sec k|sec k sec'|sec k u|wk k p|wk k p|q p c'|k|k|k]; try discriminate E.
    - destruct sec' as [u|x f|x u sec']; cbn [section_code] in S1; [discriminate S1| |]; destruct (existsb _ _); discriminate S1.
    - destruct (nth_error (heap s) 0) as [[| | |[ow|]]|]; try discriminate S1. destruct (ow =? n); discriminate S1. }
  assert (Pp : forall q c ps jj ca o' kd, nth_error (threads s) i = Some (mkth c ps jj ca) -> pos q c o' kd -> c = Exit \/ exists h k u, c = PJoin h k /\ h <> i /\ nth_error (threads s) h = Some u /\ ended u = false).
  { intros q c ps jj ca o' kd Hn P. pose proof (Stk i true) as S1. unfold step in S1. rewrite Hn in S1. cbn [now pops reaped cancelled] in S1.
    destruct P as [q|sec k|sec k sec'|sec k u|wk k p|wk k p|q p c'|k|k|k].
    - destruct q as [|sec k|wk k|h k|k]; auto; try discriminate S1.
      cbn [script_code thread_join] in *. right. destruct (Nat.eqb_spec h i); [discriminate S1|].
      destruct (nth_error (threads s) h) as [u|] eqn:Hu; [|discriminate S1]. destruct (reaped u); [discriminate S1|]. destruct (ended u) eqn:Eu; [discriminate S1|]. eauto 8.
    - exfalso. destruct (nth_error (heap s) 0) as [[| | |[ow|]]|] eqn:Hb; try discriminate S1.
      unfold mutex_ok in M. cbn [gone vars crew] in M. destruct g.
      + destruct M as (_ & [(_ & Q & _)|(n & on & d & _ & _ & Q & _)]); [discriminate Q|destruct d; discriminate Q].
      + destruct M as (_ & ow' & Q & _ & Mo). injection Q as <-. destruct Mo as (o2 & a & b & Q1 & _).
        pose proof (nth_lt _ _ _ Q1) as L. rewrite (len1 _ _ _ _ _ T) in L.
        destruct (nth_error (threads s) ow) as [t2|] eqn:Ht2; [|apply nth_error_None in Ht2; lia].
        destruct (nth_error cr ow) as [[q2 j2]|] eqn:Hq2; [|apply nth_error_None in Hq2; rewrite (len2 _ _ _ _ _ T) in Hq2; lia].
        destruct (rows _ _ _ _ _ T _ _ _ _ _ _ Ht2 Hq2 Q1) as (Tr & _).
        inversion Tr as [? ? ? ? ? ? P|? ? ? ?|? ? ? ? ? ? ? ? P]; subst; eapply Hold; eauto.
    - destruct sec' as [u|x f|x u sec']; cbn [section_code] in S1; [discriminate S1| |]; destruct (existsb _ _); discriminate S1.
    - destruct (nth_error (heap s) 0) as [[| | |[ow|]]|]; try discriminate S1. destruct (ow =? i); discriminate S1.
    - destruct (nth_error (heap s) p) as [[]|]; discriminate S1.
    - discriminate S1.
    - destruct (nth_error (heap s) p) as [[]|]; discriminate S1.
    - destruct (nth_error (heap s) 0) as [[| | |[]]|]; discriminate S1.
    - destruct (nth_error (heap s) 0) as [[]|]; discriminate S1.
    - discriminate S1. }
  pose proof (nth_lt _ _ _ Ht) as L.
  destruct (nth_error cr i) as [[q j]|] eqn:Hq; [|apply nth_error_None in Hq; rewrite (len2 _ _ _ _ _ T) in Hq; lia].
  destruct (nth_error info i) as [[w kd]|] eqn:Hi; [|apply nth_error_None in Hi; rewrite (len1 _ _ _ _ _ T) in Hi; lia].
  destruct (rows _ _ _ _ _ T _ _ _ _ _ _ Ht Hq Hi) as (Tr & _). pose proof (Stk i true) as S1. unfold step in S1. rewrite Ht in S1.
  destruct Tr as [q c w kd jj ca P|q p jj ca|q c w kd p b jj ca P].
  - destruct (Pp _ _ _ _ _ _ _ Ht P) as [->|(h & k & u & Q)]; [now left|right]. exists h, k, u. exact Q.
  - cbn [now trampoline] in S1. destruct (nth_error (heap s) p) as [[]|]; discriminate S1.
  - destruct (Pp _ _ _ _ _ _ _ Ht P) as [->|(h & k & u & Q)]; [cbn in S1; discriminate S1|right]. exists h, k, u. exact Q.
Qed.

(** All threads have ended *)
Lemma all_ended s w : inv s w -> (forall t, In t (threads s) -> ended t = true) ->
  (forall q j, In (q, j) (crew w) -> q = End) /\ mem s = vars w /\
  (forall p b, nth_error (heap s) p = Some b -> p = 0 \/ b = Freed) /\ nth_error (heap s) 0 = Some (if gone w then Freed else Mutex None).
Proof.
  intros (info & o & T & M) E. destruct w as [v cr g]. cbn [crew vars gone] in *.
  assert (R : forall n w kd, nth_error info n = Some (w, kd) -> w = [] /\ kd = Plain /\ exists j, nth_error cr n = Some (End, j)).
  { intros n w kd Hi. pose proof (nth_lt _ _ _ Hi) as L. rewrite (len1 _ _ _ _ _ T) in L.
    destruct (nth_error (threads s) n) as [t|] eqn:Ht; [|apply nth_error_None in Ht; lia].
    destruct (nth_error cr n) as [[q j]|] eqn:Hq; [|apply nth_error_None in Hq; rewrite (len2 _ _ _ _ _ T) in Hq; lia].
    destruct (rows _ _ _ _ _ T _ _ _ _ _ _ Ht Hq Hi) as (Tr & _). specialize (E t (nth_error_In _ _ Ht)).
    destruct Tr as [q c w kd jj ca P|q p jj ca|q c w kd p b jj ca P]; unfold ended in E; cbn in E; [|discriminate E|destruct c; discriminate E].
    destruct P as [q|sec k|sec k sec'|sec k u|wk k p|wk k p|q p c'|k|k|k]; try discriminate E; [destruct q; try discriminate E; eauto|destruct sec'; discriminate E]. }
  splits.
  - intros q j I. apply In_nth_error in I as (n & Hn). pose proof (nth_lt _ _ _ Hn) as L. rewrite (len2 _ _ _ _ _ T), <- (len1 _ _ _ _ _ T) in L.
    destruct (nth_error info n) as [[w kd]|] eqn:Hi; [|apply nth_error_None in Hi; lia]. destruct (R _ _ _ Hi) as (_ & _ & j' & Q). congruence.
  - unfold mutex_ok in M. cbn [gone vars] in M. destruct g; [apply M|]. destruct M as (_ & [n|] & _ & _ & Mo); [|assumption].
    destruct Mo as (o2 & a & b & Q1 & _). destruct (R _ _ _ Q1) as (_ & Q & _). discriminate Q.
  - intros p b H. destruct (leaks _ _ _ _ _ T p b H) as [->|[->|(n & w & kd & Q1 & Q2)]]; auto. destruct (R _ _ _ Q1) as (-> & _). destruct Q2.
  - unfold mutex_ok in M. cbn [gone vars] in M. destruct g.
    + destruct M as (_ & [(_ & Q & _)|(n & on & d & Q & _)]); [assumption|]. destruct (R _ _ _ Q) as (_ & X & _). discriminate X.
    + destruct M as (_ & [n|] & Hb & _ & Mo); [|assumption]. destruct Mo as (o2 & a & b & Q1 & _). destruct (R _ _ _ Q1) as (_ & Q & _). discriminate Q.
Qed.
End Proofs.
