(** * C89: environment variables, time *)
From Verif Require Import Common Env_Model Env_Spec Env_Proofs.
Local Open Scope Z_scope.

(** After any history of calls with proper names, from any environment, Env::get_dup returns a
    copy of the value last set for the name: nothing if it was unset since, the value the
    process was started with if it was never touched; and Env::get a pointer to it. *)
Theorem C89_get env l n st : Forall (fun o => settable (names_of o)) l -> settable n ->
  st = fst (run (St env 0) l) ->
  match after (getenv env) l n with
  | Some v => snd (step st (GetDup n)) = RString v /\ deref st (snd (step st (Get n))) = Ok v
  | None => snd (step st (GetDup n)) = RNone /\ snd (step st (Get n)) = RNone
  end.
Proof.
  intros H Hn ->. pose proof (run_env l H (St env 0) n Hn) as E. cbn [st_env] in E. rewrite <- E. cbn [step snd].
  destruct (getenv _ n) as [v|] eqn:G; auto. split; auto. cbn [deref]. rewrite Nat.eqb_refl. now rewrite G.
Qed.
Print Assumptions C89_get.
Example C89_get_applies :
  let l := [Set_ (bs "A") (bs "1") false; Set_ (bs "B") (bs "x=y") false; Unset (bs "A"); Set_ (bs "A") (bs "2") false; Set_ (bs "A") (bs "3") true] in
  Forall (fun o => settable (names_of o)) l /\ settable (bs "A") /\ after (getenv [bs "HOME=/"]) l (bs "A") = Some (bs "2") /\
  snd (step (fst (run (St [bs "HOME=/"] 0) l)) (GetDup (bs "HOME"))) = RString (bs "/") /\
  snd (run (St [bs "HOME=/"] 0) l) = [ROk; ROk; ROk; ROk; RErr].
Proof.
  assert (A : settable (bs "A")) by (split; [discriminate|intros [X|[]]; discriminate]).
  assert (B : settable (bs "B")) by (split; [discriminate|intros [X|[]]; discriminate]).
  cbn zeta. split; [repeat (constructor; [assumption|]); constructor|]. split; [exact A|]. split; [reflexivity|]. split; reflexivity.
Qed.

(** set and unset refuse exactly the names that cannot be set, and then change nothing *)
Theorem C89_refuses st n v : ~ settable n ->
  step st (Set_ n v false) = (st, RErr) /\ step st (Unset n) = (st, RErr).
Proof.
  intros H. assert (B : bad_name n = true).
  { destruct n as [|c n]; auto. cbn [bad_name]. destruct (existsb (N.eqb 61) (c :: n)) eqn:E; auto.
    exfalso. apply H. split; [discriminate|]. intros X. assert (existsb (N.eqb 61) (c :: n) = true); [|congruence].
    apply existsb_exists. exists 61%N. auto. }
  destruct st as [e k]. cbn [step]. unfold setenv, unsetenv. rewrite B. split; reflexivity.
Qed.
Print Assumptions C89_refuses.
(** but get looks inside values for such a name: it finds a variable nobody set *)
Theorem C89_equals_refuted n x y : settable n ->
  getenv (fst (setenv [] false n (x ++ 61%N :: y))) (n ++ 61%N :: x) = Some y.
Proof.
  intros H. unfold setenv. rewrite bad_name_ok by auto. cbn [orb fst replace getenv].
  replace (lookup (n ++ 61%N :: x) (entry n (x ++ 61%N :: y))) with (Some y); auto.
  symmetry. apply lookup_some. unfold entry. rewrite <- app_assoc. reflexivity.
Qed.
Print Assumptions C89_equals_refuted.

(** get_dup returns a copy; what get returned may not be read after any change *)
Theorem C89_pointer_refuted st n m w l v : snd (step st (Get n)) = RPtr n v -> settable m ->
  deref (fst (run st (Set_ m w false :: l))) (snd (step st (Get n))) = UB.
Proof.
  intros E Hm. rewrite E. cbn [step snd] in E. assert (V : v = st_changes st) by (destruct (getenv _ n); congruence).
  cbn [deref run step]. unfold setenv. rewrite bad_name_ok by auto. cbn [orb Z.eqb fst].
  set (st1 := St _ (S (st_changes st))). pose proof (run_changes st1 l) as C. destruct (run st1 l) as [st2 rs]. cbn [fst st1 st_changes] in *.
  destruct (Nat.eqb_spec v (st_changes st2)); [lia|reflexivity].
Qed.
Print Assumptions C89_pointer_refuted.

(** ** Time *)
(** sleep asks for exactly the milliseconds below 71 minutes, and for less than that beyond *)
Theorem C89_sleep_partial ms : 0 <= ms <= 4294967 -> sleep ms = ms * 1000.
Proof. intros H. apply sleep_ok; lia. Qed.
Theorem C89_sleep_refuted ms : 4294968 <= ms < 18446744073709551616 -> sleep ms < ms * 1000.
Proof. apply sleep_short. Qed.
Example C89_sleep_applies : sleep 1500 = 1500000 /\ sleep 4294968 = 704.
Proof. split; reflexivity. Qed.
Print Assumptions C89_sleep_refuted.
(** Time::now is the wall clock in milliseconds, so it never goes back while the clock does not *)
Theorem C89_now s u s' u' : 0 <= s < 1000000000000000 -> 0 <= u < 1000000 -> 0 <= s' < 1000000000000000 -> 0 <= u' < 1000000 ->
  now s u = (s * 1000000 + u) / 1000 /\ (s * 1000000 + u <= s' * 1000000 + u' -> now s u <= now s' u').
Proof.
  intros. rewrite !now_ok by auto. split; auto. intros L. apply Z.div_le_mono; lia.
Qed.
Print Assumptions C89_now.
Example C89_now_applies : now 1700000000 999999 = 1700000000999.
Proof. reflexivity. Qed.
(** seconds are converted right until the product no longer fits *)
Theorem C89_secs_partial s : 0 <= s <= 18446744073709551 -> from_secs s = s * 1000.
Proof. intros H. unfold from_secs. apply u64_small. lia. Qed.
Theorem C89_secs_refuted s : 18446744073709552 <= s < 18446744073709551616 -> from_secs s < s * 1000.
Proof.
  intros H. unfold from_secs, u64. pose proof (Z.mod_pos_bound (s * 1000) (2 ^ 64) ltac:(lia)) as B.
  change (2 ^ 64) with 18446744073709551616 in *. lia.
Qed.
Print Assumptions C89_secs_refuted.
