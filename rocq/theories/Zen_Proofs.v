From Verif Require Import Common Zen_Model Zen_Spec.
Local Open Scope nat_scope.

Lemma same_ok a b : same a b = true <-> a = b.
Proof. split; [destruct a, b; (reflexivity || discriminate)|intros ->; now destruct b]. Qed.
Lemma of_name_ok t : of_name (name_of t) = t.
Proof. destruct t; reflexivity. Qed.
Lemma complete_fact e t : complete e -> trig (fact_of e) = t -> e_trigger e = Some (name_of t).
Proof. intros (u & m & E & _) H. unfold fact_of in H. rewrite E in H |- *. cbn [trig] in H. rewrite of_name_ok in H. now subst. Qed.
Lemma nth_firstn {A} n (l : list A) k x : nth_error (firstn n l) k = Some x -> In x l.
Proof. intros H. apply nth_error_In in H. rewrite <- (firstn_skipn n l). apply in_or_app. now left. Qed.
Definition ready (s : st) : Prop := has s = false /\ warnings s = 0 /\ tips s = [].
(** one request of a tip *)
Lemma choose_ok l t p d1 d2 s : Forall complete l -> ready s ->
  choose (Some l) t p d1 d2 s = Ok s \/ exists x, choose (Some l) t p d1 d2 s = Ok (St [x] true 0) /\ place x = p /\ told_by l t x.
Proof.
  intros C (H & W & T). unfold choose. rewrite H, W. change (0 <? 0) with false. cbv iota. destruct (10 <=? d1 mod 100); [now left|]. cbv zeta.
  destruct (nth_error _ _) as [f|] eqn:E; [|now left]. right. apply nth_firstn, filter_In in E as [E Tr]. apply same_ok in Tr. apply in_map_iff in E as (e & <- & I).
  pose proof (proj1 (Forall_forall _ _) C e I) as Ce. pose proof (complete_fact e t Ce Tr) as Et. destruct Ce as (u & m & _ & Em).
  exists (Tip p m (e_url e)). unfold fact_of. cbn [message url]. rewrite Em, T. splits; [reflexivity|reflexivity|]. exists e. splits; auto.
Qed.
Lemma choose_done f t p d1 d2 s : has s = true \/ 0 < warnings s -> choose f t p d1 d2 s = Ok s.
Proof. intros [H|H]; unfold choose; [now rewrite H|]. destruct (has s); [reflexivity|]. apply Nat.ltb_lt in H. now rewrite H. Qed.
Lemma step_done c f e s : has s = true \/ 0 < warnings s -> exists s', step c f e s = Ok s' /\ tips s' = tips s /\ (has s' = true \/ 0 < warnings s').
Proof.
  intros H. destruct e as [t l k d1 d2|tty d1 d2|]; cbn [step].
  - exists s. destruct (quiet c || no_zen c); [auto|]. rewrite choose_done by exact H. auto.
  - exists s. destruct (quiet c || no_zen c); [auto|]. destruct (negb tty); [auto|]. rewrite choose_done by exact H. auto.
  - eexists. split; [reflexivity|]. split; [reflexivity|]. cbn. right. lia.
Qed.
Lemma run_done c f l : forall s, has s = true \/ 0 < warnings s -> exists s', run c f l s = Ok s' /\ tips s' = tips s.
Proof.
  induction l as [|e l IH]; intros s H; cbn [run]; [eauto|]. destruct (step_done c f e s H) as (s1 & E & T & H1). rewrite E. cbn [bind].
  destruct (IH s1 H1) as (s' & R & T'). exists s'. split; [exact R|congruence].
Qed.
Lemma run_ok c l evs : Forall complete l -> forall s, ready s ->
  exists s', run c (Some l) evs s = Ok s' /\
    (tips s' = [] \/ exists x before e after t, tips s' = [x] /\ evs = before ++ e :: after /\ ~ In Warning before /\ asks e t (place x) /\ told_by l t x).
Proof.
  intros C. induction evs as [|e evs IH]; intros s R; cbn [run].
  - exists s. split; [reflexivity|]. left. apply R.
  - assert (K : (step c (Some l) e s = Ok s /\ e <> Warning) \/ (e = Warning /\ step c (Some l) e s = Ok (St [] false 1)) \/
                exists x t, step c (Some l) e s = Ok (St [x] true 0) /\ asks e t (place x) /\ told_by l t x).
    { destruct e as [t ln k d1 d2|tty d1 d2|]; cbn [step].
      - destruct (quiet c || no_zen c); [left; split; [reflexivity|discriminate]|]. destruct (choose_ok l t (Some (ln, k)) d1 d2 s C R) as [E|(x & E & P & T)]; [left; split; [exact E|discriminate]|].
        right. right. exists x, t. splits; auto. cbn. auto.
      - destruct (quiet c || no_zen c); [left; split; [reflexivity|discriminate]|]. destruct tty; cbn [negb]; [|left; split; [reflexivity|discriminate]].
        destruct (choose_ok l Global None d1 d2 s C R) as [E|(x & E & P & T)]; [left; split; [exact E|discriminate]|]. right. right. exists x, Global. splits; auto. cbn. auto.
      - right. left. split; [reflexivity|]. destruct R as (H & W & T). now rewrite H, W, T. }
    destruct K as [[E Ne]|[[-> E]|(x & t & E & A & T)]]; rewrite E; cbn [bind].
    + destruct (IH s R) as (s' & R' & H). exists s'. split; [exact R'|]. destruct H as [H|(x & b & e' & a & t & T & Ev & Nw & As & To)]; [now left|]. right.
      exists x, (e :: b), e', a, t. splits; auto; [now rewrite Ev|]. intros [I|I]; [now apply Ne|contradiction].
    + destruct (run_done c (Some l) evs (St [] false 1)) as (s' & R' & H); [right; cbn; lia|]. exists s'. split; [exact R'|]. now left.
    + destruct (run_done c (Some l) evs (St [x] true 0)) as (s' & R' & H); [now left|]. exists s'. split; [exact R'|]. right. exists x, [], e, evs, t. splits; auto.
Qed.
(** whatever the file *)
Lemma choose_tips f t p d1 d2 s s' : choose f t p d1 d2 s = Ok s' -> tips s' = tips s \/ exists m u, tips s' = tips s ++ [Tip p m u] /\ has s = false /\ has s' = true /\
   exists l, f = Some l /\ exists x, In x (firstn 10 (filter (fun x => same (trig x) t) (map fact_of l))) /\ message x = Some m /\ url x = u.
Proof.
  unfold choose. destruct (has s) eqn:H; [intros [= <-]; now left|]. destruct (0 <? warnings s); [intros [= <-]; now left|]. destruct (10 <=? d1 mod 100); [intros [= <-]; now left|].
  destruct f as [l|]; [|intros [= <-]; now left]. cbv zeta. destruct (nth_error _ _) as [x|] eqn:E; [|intros [= <-]; now left].
  destruct (message x) as [m|] eqn:M; [|discriminate]. intros [= <-]. right. exists m, (url x). splits; auto. exists l. split; [reflexivity|]. exists x. splits; auto. now apply nth_error_In in E.
Qed.
Lemma filter_facts t l : filter (fun f => same (trig f) t) (map fact_of l) = map fact_of (filter (fun e => same (trig (fact_of e)) t) l).
Proof. induction l as [|x l IH]; [reflexivity|]. cbn [map filter]. destruct (same (trig (fact_of x)) t); cbn [map]; now rewrite IH. Qed.
(** every tip is one of the first ten of a trigger *)
Definition early (l : list entry) (x : tip) : Prop :=
  exists t e, In e (firstn 10 (filter (fun e => same (trig (fact_of e)) t) l)) /\ e_message e = Some (said x) /\ e_url e = link x.
Lemma choose_early l t p d1 d2 s s' : choose (Some l) t p d1 d2 s = Ok s' -> Forall (early l) (tips s) -> Forall (early l) (tips s').
Proof.
  intros E F. apply choose_tips in E as [E|(m & u & E & _ & _ & l' & [= <-] & y & I & M & U)]; [now rewrite E|]. rewrite E. apply Forall_app. split; [exact F|].
  apply Forall_cons; [|constructor]. rewrite filter_facts, firstn_map in I. apply in_map_iff in I as (e & <- & I). exists t, e. splits; auto.
Qed.
Lemma run_first c l evs s : run c (Some l) evs clean = Ok s -> forall x, In x (tips s) -> early l x.
Proof.
  enough (G : forall s0, Forall (early l) (tips s0) -> run c (Some l) evs s0 = Ok s -> Forall (early l) (tips s)).
  { intros R x I. exact (proj1 (Forall_forall _ _) (G clean (Forall_nil _) R) x I). }
  induction evs as [|e evs IH]; intros s0 F0 R; cbn [run] in R; [injection R as <-; exact F0|].
  destruct (step c (Some l) e s0) as [s1| | |] eqn:E; try discriminate. cbn [bind] in R. apply (IH s1); [|exact R].
  destruct e as [t ln k d1 d2|tty d1 d2|]; cbn [step] in E.
  - destruct (quiet c || no_zen c); [injection E as <-; exact F0|]. exact (choose_early _ _ _ _ _ _ _ E F0).
  - destruct (quiet c || no_zen c); [injection E as <-; exact F0|]. destruct (negb tty); [injection E as <-; exact F0|]. exact (choose_early _ _ _ _ _ _ _ E F0).
  - injection E as <-. exact F0.
Qed.
Lemma NoDup_map_inj {A B} (f : A -> B) l : NoDup (map f l) -> forall x y, In x l -> In y l -> f x = f y -> x = y.
Proof.
  induction l as [|a l IH]; intros Nd x y Ix Iy E; [destruct Ix|]. cbn [map] in Nd. inversion Nd as [|? ? Na Nl]; subst. destruct Ix as [<-|Ix], Iy as [<-|Iy]; auto.
  - exfalso. apply Na. rewrite E. now apply in_map.
  - exfalso. apply Na. rewrite <- E. now apply in_map.
Qed.
