From Verif Require Import Common Env_Model Env_Spec.
Local Open Scope Z_scope.

Lemma bad_name_ok n : settable n -> bad_name n = false.
Proof.
  intros [H1 H2]. destruct n as [|c n]; [congruence|]. cbn [bad_name].
  destruct (existsb (N.eqb 61) (c :: n)) eqn:E; auto. exfalso. apply existsb_exists in E as (x & I & E). apply N.eqb_eq in E. subst x. auto.
Qed.
Lemma skipn_app_len {A} (x y : list A) : skipn (length x) (x ++ y) = y.
Proof. induction x; auto. Qed.
Lemma lookup_some n e v : lookup n e = Some v <-> e = entry n v.
Proof.
  unfold lookup, entry. split.
  - destruct (is_prefix (n ++ [61%N]) e) eqn:E; [|discriminate]. apply is_prefix_spec in E as [r ->]. intros H.
    replace (length n + 1)%nat with (length (n ++ [61%N])) in H by (rewrite app_length; reflexivity).
    rewrite skipn_app_len in H. injection H as <-. now rewrite <- app_assoc.
  - intros ->. replace (n ++ 61%N :: v) with ((n ++ [61%N]) ++ v) by (rewrite <- app_assoc; reflexivity).
    replace (is_prefix (n ++ [61%N]) ((n ++ [61%N]) ++ v)) with true by (symmetry; apply is_prefix_spec; eauto).
    replace (length n + 1)%nat with (length (n ++ [61%N])) by (rewrite app_length; reflexivity).
    now rewrite skipn_app_len.
Qed.
Lemma entry_inj n v m w : ~ In 61%N n -> ~ In 61%N m -> entry n v = entry m w -> n = m /\ v = w.
Proof.
  unfold entry. revert m. induction n as [|c n IH]; intros [|d m] Hn Hm E; cbn [app] in E.
  - now injection E as ->.
  - injection E as <- _. exfalso. apply Hm. now left.
  - injection E as -> _. exfalso. apply Hn. now left.
  - injection E as -> E. destruct (IH m) as [-> ->]; auto; intros X; [apply Hn|apply Hm]; now right.
Qed.
Lemma lookup_other n m v : settable n -> settable m -> n <> m -> lookup n (entry m v) = None.
Proof.
  intros Hn Hm D. destruct (lookup n (entry m v)) as [w|] eqn:E; auto. apply lookup_some in E.
  apply entry_inj in E as [E _]; [congruence|apply Hm|apply Hn].
Qed.
Lemma get_replace env n v k : settable n -> settable k -> getenv (replace env n v) k = if beq_bytes k n then Some v else getenv env k.
Proof.
  intros Hn Hk. induction env as [|e env IH]; cbn [replace getenv].
  - destruct (beq_bytes_spec k n) as [->|D].
    + rewrite (proj2 (lookup_some n (entry n v) v) eq_refl). reflexivity.
    + now rewrite lookup_other.
  - destruct (lookup n e) as [w|] eqn:E; cbn [getenv].
    + apply lookup_some in E as ->. destruct (beq_bytes_spec k n) as [->|D].
      * now rewrite (proj2 (lookup_some n (entry n v) v) eq_refl).
      * now rewrite !lookup_other.
    + rewrite IH. destruct (beq_bytes_spec k n) as [->|D]; auto. now rewrite E.
Qed.
Lemma get_filter env n k : settable n -> settable k -> getenv (filter (fun e => if lookup n e then false else true) env) k = if beq_bytes k n then None else getenv env k.
Proof.
  intros Hn Hk. induction env as [|e env IH]; cbn [filter getenv].
  - now destruct (beq_bytes k n).
  - destruct (lookup n e) as [w|] eqn:E; cbn [getenv]; rewrite IH.
    + apply lookup_some in E as ->. destruct (beq_bytes_spec k n) as [->|D]; auto. now rewrite lookup_other.
    + destruct (beq_bytes_spec k n) as [->|D]; auto. now rewrite E.
Qed.
Lemma step_env st o k : settable (names_of o) -> settable k -> getenv (st_env (fst (step st o))) k = after (getenv (st_env st)) [o] k.
Proof.
  intros Ho Hk. destruct o as [n|n|n v m|n]; cbn [step fst after names_of] in *; auto.
  - unfold setenv. rewrite bad_name_ok by auto. destruct m; cbn; auto. now apply get_replace.
  - unfold unsetenv. rewrite bad_name_ok by auto. cbn. now apply get_filter.
Qed.
Lemma after_ext l : forall m m' k, Forall (fun o => settable (names_of o)) l -> settable k -> (forall k, settable k -> m k = m' k) -> after m l k = after m' l k.
Proof.
  induction l as [|o l IH]; intros m m' k H Hk E; cbn [after]; auto. inversion H; subst.
  destruct o as [n|n|n v [|]|n]; auto; apply IH; auto; intros x Hx; unfold put; destruct (beq_bytes x n); auto.
Qed.
Lemma run_env l : Forall (fun o => settable (names_of o)) l -> forall st k, settable k -> getenv (st_env (fst (run st l))) k = after (getenv (st_env st)) l k.
Proof.
  induction 1 as [|o l Ho Hl IH]; intros st k Hk; [reflexivity|].
  pose proof (fun k => step_env st o k Ho) as St.
  cbn [run]. destruct (step st o) as [st1 r]. cbn [fst] in St. specialize (IH st1 k Hk). destruct (run st1 l) as [st2 rs]. cbn [fst] in *.
  rewrite IH. destruct o as [n|n|n v [|]|n]; cbn [after] in *; apply after_ext; auto.
Qed.
Lemma run_app st l l' : fst (run st (l ++ l')) = fst (run (fst (run st l)) l').
Proof.
  revert st. induction l as [|o l IH]; intros st; cbn [app run fst]; auto.
  destruct (step st o) as [st1 r]. specialize (IH st1). destruct (run st1 (l ++ l')), (run st1 l). cbn [fst] in *. exact IH.
Qed.
Lemma run_changes st l : (st_changes st <= st_changes (fst (run st l)))%nat.
Proof.
  revert st. induction l as [|o l IH]; intros st; cbn [run fst]; auto.
  assert (H : (st_changes st <= st_changes (fst (step st o)))%nat).
  { destruct o as [n|n|n v m|n]; cbn [step fst]; auto.
    - unfold setenv. destruct (bad_name n || m); cbn; lia.
    - unfold unsetenv. destruct (bad_name n); cbn; lia. }
  destruct (step st o) as [st1 r]. specialize (IH st1). destruct (run st1 l). cbn [fst] in *. lia.
Qed.

(** Time *)
Lemma u64_small z : 0 <= z < 18446744073709551616 -> u64 z = z.
Proof. intros H. unfold u64. apply Z.mod_small. change (2 ^ 64) with 18446744073709551616. exact H. Qed.
Lemma sleep_ok ms : 0 <= ms < 4294968 -> ms * 1000 < 4294967296 -> sleep ms = ms * 1000.
Proof.
  intros H H2. unfold sleep. rewrite u64_small by lia. unfold u32. apply Z.mod_small. change (2 ^ 32) with 4294967296. lia.
Qed.
Lemma sleep_short ms : 4294968 <= ms < 18446744073709551616 -> sleep ms < ms * 1000.
Proof.
  intros H. unfold sleep, u32. pose proof (Z.mod_pos_bound (u64 (ms * 1000)) (2 ^ 32) ltac:(lia)) as B.
  change (2 ^ 32) with 4294967296 in *. lia.
Qed.
Lemma now_ok s u : 0 <= s < 1000000000000000 -> 0 <= u < 1000000 -> now s u = (s * 1000000 + u) / 1000.
Proof.
  intros Hs Hu. unfold now.
  assert (U : 0 <= u / 1000 < 1000) by (split; [apply Z.div_pos; lia|apply Z.div_lt_upper_bound; lia]).
  rewrite (u64_small s), (u64_small u), (u64_small (s * 1000)), u64_small by lia.
  replace (s * 1000000 + u) with (u + (s * 1000) * 1000) by ring. rewrite Z.div_add by lia. lia.
Qed.
