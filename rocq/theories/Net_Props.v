(** C84: sockets own their descriptors, and read_exact reads exactly what was asked for. *)
From Verif Require Import Common Net_Model Net_Spec Net_Proofs.
From Coq Require Import Permutation.
Local Open Scope Z_scope.

(** After every history of connects, binds, accepts, closes and drops, failed ones included, in a process whose
    other code opens and closes descriptors of its own: each open descriptor is other code's
    or held by exactly one open socket object.  Nothing leaks, nothing is closed twice, no descriptor
    of other code is closed; with no objects left only the other code's are open. *)
Theorem C84_descriptors : forall fds l, NoDup fds -> possible (start fds) l ->
  let p := history (start fds) l in
  NoDup (opened p) /\ Permutation (opened p) (foreign p ++ held (objs p))
  /\ (objs p = [] -> Permutation (opened p) (foreign p)).
Proof.
  intros fds l N P p. assert (T : tidy p).
  { apply history_tidy; auto. split; auto. cbn. now rewrite app_nil_r. }
  destruct T as (T1 & T2). splits; auto. intros E. rewrite E in T2. cbn in T2. now rewrite app_nil_r in T2.
Qed.
(** stdin is closed, so a listener gets descriptor 0; a client is accepted, a connect fails, both are closed
    and the numbers are used again *)
Example C84_descriptors_case :
  let l := [Bind 0 true true true; Accept 0 3; Connect 4 true false; Connect (-1) true true; Close 1; OtherOpen 3; Close 1;
            BindUdp 4 true true; Drop 1; Drop 0; OtherClose 1] in
  NoDup [1; 2] /\ possible (start [1; 2]) l
  /\ history (start [1; 2]) l = {| opened := [4; 3; 2]; foreign := [3; 2]; objs := [{| knd := Udp; handle := 5 |}] |}.
Proof.
  cbn zeta. splits; try (vm_compute; reflexivity).
  - constructor; [|constructor; [|constructor]]; cbn; lia.
  - cbn. repeat match goal with |- _ /\ _ => split end; auto; try lia; right; lia.
Qed.

(** Closing a closed socket does nothing. *)
Theorem C84_close_twice : forall p i, step (step p (Close i)) (Close i) = step p (Close i).
Proof.
  intros p i. cbn [step]. unfold close_at at 2 3. destruct (nth_error (objs p) i) as [s|] eqn:E.
  - destruct (0 <? handle s) eqn:H.
    + unfold close_at. cbn [objs]. rewrite nth_error_upd, Nat.eqb_refl.
      assert (L : (i < length (objs p))%nat) by (apply nth_error_Some; congruence).
      destruct (Nat.ltb_spec i (length (objs p))); [|lia]. reflexivity.
    + unfold close_at. now rewrite E, H.
  - unfold close_at. now rewrite E.
Qed.
(** A closed listener accepts nothing, and what it was does not matter to the process. *)
Theorem C84_accept_closed : forall p i fd, Forall (fun x => 0 <= x) (opened p) ->
  step (step p (Close i)) (Accept i fd) = step p (Close i).
Proof.
  intros p i fd F. cbn [step]. 
  assert (C : Forall (fun x => 0 <= x) (opened (close_at i p))).
  { unfold close_at. destruct (nth_error (objs p) i) as [s|]; auto. destruct (0 <? handle s); auto.
    cbn [opened]. unfold sys_close. rewrite Forall_forall in *. intros x X. apply in_remove in X as [X _]. auto. }
  unfold accept. destruct (nth_error (objs (close_at i p)) i) as [s|] eqn:E; auto.
  assert (H : handle s <= 0).
  { revert E. unfold close_at. destruct (nth_error (objs p) i) as [s'|] eqn:E'; [|rewrite E'; discriminate].
    destruct (Z.ltb_spec 0 (handle s')).
    - cbn [objs]. rewrite nth_error_upd, Nat.eqb_refl. cbn [andb].
      destruct (Nat.ltb_spec i (length (objs p))); [intros X; injection X as <-; cbn; lia|].
      apply nth_error_None in H0. congruence.
    - rewrite E'. intros X. injection X as <-. lia. }
  replace (mem_z (handle s - 1) (opened (close_at i p))) with false; [reflexivity|].
  symmetry. unfold mem_z. apply not_true_iff_false. intros X. apply existsb_exists in X as (y & Y & Q).
  rewrite Forall_forall in C. specialize (C _ Y). lia.
Qed.
Example C84_accept_closed_case : let p := {| opened := [3; 4]; foreign := [3]; objs := [{| knd := Listener; handle := 5 |}] |} in
  Forall (fun x => 0 <= x) (opened p) /\ step p (Accept 0 7) <> p /\ step (step p (Close 0)) (Accept 0 7) = step p (Close 0).
Proof. cbn zeta. splits; [repeat constructor; lia|discriminate|reflexivity]. Qed.

(** However the kernel cuts the stream into pieces: read_exact gives the next [len] bytes of the stream, whole and in order, and
    takes no more; otherwise it reports an error, and then the stream ended early or the kernel reported one.  It writes only
    the first [len] places of the buffer. *)
Theorem C84_read_exact : forall sched b len input, (len <= length b)%nat -> (len <= length sched)%nat ->
  match read_exact sched b len input with
  | Ok (Some n, b', rest) => n = len /\ input = firstn len input ++ rest /\ length (firstn len input) = len
      /\ b' = map Some (firstn len input) ++ skipn len b
  | Ok (None, b', rest) => (exists k, (k < len)%nat /\ b' = map Some (firstn k input) ++ skipn k b /\ rest = skipn k input)
      /\ ((length input < len)%nat \/ In Error sched)
  | _ => False
  end.
Proof.
  intros sched b len input L S. unfold read_exact.
  pose proof (read_loop_ok len b input L sched 0 ltac:(lia) ltac:(lia) b eq_refl) as H.
  rewrite skipn_O in H. destruct (read_exact_loop sched b len 0 input) as [[[[n|] b'] rest]| | |]; auto.
  - destruct H as (-> & LI & -> & ->). splits; auto.
    + now rewrite firstn_skipn.
    + rewrite firstn_length. lia.
  - destruct H as (k & K & KI & -> & -> & D). split; [eauto|]. destruct D; [left; lia|auto].
  - lia.
Qed.
(** Without errors and with enough bytes it does not fail. *)
Theorem C84_read_exact_succeeds : forall sched b len input, (len <= length b)%nat -> (len <= length sched)%nat ->
  (len <= length input)%nat -> ~ In Error sched ->
  read_exact sched b len input = Ok (Some len, map Some (firstn len input) ++ skipn len b, skipn len input).
Proof.
  intros sched b len input L S I E. unfold read_exact.
  pose proof (read_loop_ok len b input L sched 0 ltac:(lia) ltac:(lia) b eq_refl) as H.
  rewrite skipn_O in H. destruct (read_exact_loop sched b len 0 input) as [[[[n|] b'] rest]| | |]; try contradiction.
  - destruct H as (-> & LI & -> & ->). reflexivity.
  - destruct H as (k & K & KI & _ & _ & D). destruct D; [lia|contradiction].
  - lia.
Qed.
Example C84_read_exact_case :
  read_exact [Some_ 0; Some_ 2; Some_ 9; Some_ 0; Some_ 0] (bnew 6) 5 (bs "hello world") =
    Ok (Some 5%nat, map Some (bs "hello") ++ [None], bs " world")
  /\ read_exact (repeat (Some_ 1) 5) (bnew 5) 5 (bs "hel") = Ok (None, map Some (bs "hel") ++ [None; None], []).
Proof. vm_compute. auto. Qed.

(** REFUTED: write reports success although only part of the data was sent: any first part is possible. *)
Theorem C84_write_refuted : forall data out k, (0 < k < length data)%nat ->
  exists a, write a data out = (Some k, out ++ firstn k data) /\ firstn k data <> data.
Proof.
  intros data out k K. exists (Some_ (k - 1)). unfold write.
  replace (Nat.min (S (k - 1)) (length data)) with k by lia. split; auto.
  intros E. apply (f_equal (@length N)) in E. rewrite firstn_length in E. lia.
Qed.
(** PARTIAL: what write reports is what was sent. *)
Theorem C84_write_partial : forall a data out, 
  match write a data out with
  | (Some k, out') => out' = out ++ firstn k data /\ (k <= length data)%nat /\ (data <> [] -> (0 < k)%nat)
  | (None, out') => out' = out
  end.
Proof.
  intros [n|] data out; unfold write; auto. splits; auto; [lia|].
  intros D. destruct data; [contradiction|]. cbn [length]. lia.
Qed.
(** REFUTED: a port outside 0..65535 is not an error; it stands for another port. *)
Theorem C84_port_refuted : forall port, 0 <= port < 65536 -> forall k, port_used (port + 65536 * k) = port.
Proof.
  intros port P k. unfold port_used. change (2 ^ 16) with 65536. rewrite (Z.mul_comm 65536 k), Z_mod_plus_full.
  apply Z.mod_small. lia.
Qed.
Example C84_write_case : write (Some_ 2) (bs "hello") [] = (Some 3%nat, bs "hel") /\ port_used 65616 = 80.
Proof. vm_compute. auto. Qed.

Print Assumptions C84_descriptors.
Print Assumptions C84_close_twice.
Print Assumptions C84_accept_closed.
Print Assumptions C84_read_exact.
Print Assumptions C84_read_exact_succeeds.
Print Assumptions C84_write_refuted.
Print Assumptions C84_write_partial.
Print Assumptions C84_port_refuted.

(** An object is made exactly if every call of the kernel succeeded; otherwise nothing has changed, and no descriptor stays open. *)
Theorem C84_made : forall p fd addr sys listen, ~ In fd (opened p) ->
  (let q := step p (Bind fd addr sys listen) in
   if (0 <=? fd) && addr && sys && listen then opened q = fd :: opened p /\ objs q = objs p ++ [{| knd := Listener; handle := fd + 1 |}] else opened q = opened p /\ objs q = objs p)
  /\ (let q := step p (Connect fd addr sys) in
   if (0 <=? fd) && addr && sys then opened q = fd :: opened p /\ objs q = objs p ++ [{| knd := Stream; handle := fd + 1 |}] else opened q = opened p /\ objs q = objs p)
  /\ (let q := step p (BindUdp fd addr sys) in
   if (0 <=? fd) && addr && sys then opened q = fd :: opened p /\ objs q = objs p ++ [{| knd := Udp; handle := fd + 1 |}] else opened q = opened p /\ objs q = objs p).
Proof.
  intros p fd addr sys listen N. cbn [step]. unfold make, net_bind, net_connect.
  assert (R : sys_close fd (fd :: opened p) = opened p). { unfold sys_close. cbn [remove]. destruct (Z.eq_dec fd fd); [|congruence]. now apply notin_remove. }
  destruct (Z.ltb_spec fd 0) as [L|L].
  - replace (0 <=? fd) with false by (symmetry; apply Z.leb_gt; lia). cbn [andb]. splits; split; reflexivity.
  - replace (0 <=? fd) with true by (symmetry; apply Z.leb_le; lia). destruct addr, sys, listen; cbn [andb negb]; cbn -[sys_close]; rewrite ?R; splits; split; reflexivity.
Qed.
Example C84_made_used : ~ In 3 (opened (start [0; 1; 2])). Proof. cbn. intuition discriminate. Qed.
Print Assumptions C84_made.
