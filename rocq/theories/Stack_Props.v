(** Property C06: Stack. *)
From Verif Require Import Common Queue_Spec Stack_Model Stack_Proofs.

(** Every history is answered as by a LIFO list. *)
Theorem C06_stack_lifo :
  forall (A : Type) (ops : list (qop A)),
  exists s, s_run snew ops = Ok (s, answers lifo_step [] ops).
Proof. intros A ops. apply s_run_ok, srep_new. Qed.
Print Assumptions C06_stack_lifo.

Example C06_example :
  answers lifo_step [] [QPush 1; QPush 2; QPop; QPush 3; QLength; QPop; QPop; QPop]
  = [QUnit; QUnit; QItem (Some 2); QUnit; QNum 2; QItem (Some 3); QItem (Some 1); QItem None].
Proof. reflexivity. Qed.

(** A clone of a stack that has ever allocated answers every continuation as the
    original does. *)
Theorem C06_clone_partial :
  forall (A : Type) (history continuation : list (qop A)) s outs,
  s_run snew history = Ok (s, outs) ->
  0 < scap s ->
  exists c, sclone s = Ok c /\
  exists s1 c1 o, s_run s continuation = Ok (s1, o) /\ s_run c continuation = Ok (c1, o).
Proof.
  intros A h k s outs H F. destruct (s_run_rep h snew [] s outs srep_new H) as [l R].
  destruct (sclone_ok s l R F) as (c & E & Rc). exists c. split; auto.
  destruct (s_run_ok k s l R) as [s1 E1]. destruct (s_run_ok k c l Rc) as [c1 E2]. eauto 6.
Qed.
Print Assumptions C06_clone_partial.

Example C06_clone_example :
  exists s outs, s_run snew [QPush 1; QPush 2; QPop] = Ok (s, outs) /\ 0 < scap s.
Proof. do 2 eexists. split; [vm_compute; reflexivity|]. cbn. lia. Qed.

(** A clone of a stack that never allocated has a non-null zero-byte buffer, and
    the first push writes outside it. *)
Theorem C06_clone_fresh_refuted :
  forall (A : Type) (x : A),
  exists c, sclone snew = Ok c /\ s_run c [QPush x] = UB /\
  exists s, s_run snew [QPush x] = Ok (s, [QUnit]).
Proof. intros. eexists. split; [reflexivity|]. split; [reflexivity|]. eexists. reflexivity. Qed.
Print Assumptions C06_clone_fresh_refuted.
