(** Properties C04, C05: Queue. *)
From Verif Require Import Common Queue_Model Queue_Spec Queue_Sys Queue_Proofs.

(** C04.  Every history is answered as by a FIFO list, without panic, undefined
    behaviour or non-termination. *)
Theorem C04_queue_fifo :
  forall (A : Type) (ops : list (qop A)),
  exists q, q_run qnew ops = Ok (q, answers fifo_step [] ops).
Proof. intros A ops. apply q_run_ok, qrep_new. Qed.
Print Assumptions C04_queue_fifo.

Example C04_example :
  answers fifo_step [] [QPush 1; QPush 2; QPop; QPush 3; QLength; QPop; QPop; QPop]
  = [QUnit; QUnit; QItem (Some 1); QUnit; QNum 2; QItem (Some 2); QItem (Some 3); QItem None].
Proof. reflexivity. Qed.

(** C05 for queues that are not full: the clone answers every continuation as the
    original does. *)
Theorem C05_clone_partial :
  forall (A : Type) (history continuation : list (qop A)) q outs,
  q_run qnew history = Ok (q, outs) ->
  qcount q < qcap q \/ qcap q = 0 ->
  exists c, qclone q = Ok c /\
  exists q1 c1 o, q_run q continuation = Ok (q1, o) /\ q_run c continuation = Ok (c1, o).
Proof.
  intros A h k q outs H F. destruct (q_run_rep h qnew [] q outs qrep_new H) as [l R].
  destruct (qclone_ok q l R F) as (c & E & Rc). exists c. split; auto.
  destruct (q_run_ok k q l R) as [q1 E1]. destruct (q_run_ok k c l Rc) as [c1 E2]. eauto 6.
Qed.
Print Assumptions C05_clone_partial.

(** C05 fails for every full queue: popping once from the clone and pushing writes
    one past the end of its buffer. *)
Theorem C05_clone_full_refuted :
  forall (A : Type) (history : list (qop A)) q outs (x : A),
  q_run qnew history = Ok (q, outs) ->
  0 < qcap q -> qcount q = qcap q ->
  exists c, qclone q = Ok c /\ q_run c [QPop; QPush x] = UB.
Proof.
  intros A h q outs x H Hc F. destruct (q_run_rep h qnew [] q outs qrep_new H) as [l R].
  now apply (qclone_full_ub q l x).
Qed.
Print Assumptions C05_clone_full_refuted.

Example C05_full_reachable :
  exists q outs, q_run qnew (map QPush [1;2;3;4;5;6;7;8]) = Ok (q, outs)
                 /\ 0 < qcap q /\ qcount q = qcap q.
Proof. do 2 eexists. split; [vm_compute; reflexivity|]. cbn. lia. Qed.

Example C05_partial_reachable :
  exists q outs, q_run qnew [QPush 1; QPush 2; QPop] = Ok (q, outs) /\ qcount q < qcap q.
Proof. do 2 eexists. split; [vm_compute; reflexivity|]. cbn. lia. Qed.
