(** C37: Drop reaches exactly the structs that own something to drop, and dropping a value
    runs the right drops. *)
From Verif Require Import Common Drop_Model Drop_Spec Drop_Proofs.
Local Open Scope nat_scope.

(** The propagation ends, whatever the declarations (also recursive ones), after at most
    one pass per struct and one more. *)
Theorem C37_terminates lookup structs declared :
  exists marks, propagate lookup structs (length structs + 1) declared = Ok marks.
Proof.
  destruct (propagate_spec lookup structs (length structs + 1) declared) as (m & E & _); [|eauto].
  pose proof (unmarked_le structs declared). lia.
Qed.
(** Exactly the structs that declare Drop or contain by value, at some depth, one that does
    are marked.  Here [structs] is the list of parsed structs and a struct contains the
    types of its fields of struct type.  Missing from the full claim: arrays of structs
    ([C37_array_refuted]) and instances of generic structs ([C37_instance_refuted]). *)
Theorem C37_exact_partial lookup structs declared fuel marks :
  propagate lookup structs fuel declared = Ok marks ->
  forall x, In x marks <-> owns lookup structs declared x.
Proof.
  intros E.
  assert (E2 : propagate lookup structs (fuel + (length structs + 1)) declared = Ok marks) by (eapply propagate_fuel; [exact E|lia]).
  destruct (propagate_spec lookup structs (fuel + (length structs + 1)) declared) as (m & E' & A & B & C).
  { pose proof (unmarked_le structs declared). lia. }
  rewrite E2 in E'. injection E' as <-. intros x. split.
  - apply B. intros y Y. now constructor.
  - intros O. induction O as [x I|s n y I Hh O IH]; [now apply A|]. eapply C; eauto.
Qed.

(** Dropping a value of type [x]: the glue runs the user's drop of every object inside the
    value (at the path of field names [p]) whose type declares Drop, each exactly once. *)
Theorem C37_glue lookup structs defs declared manual fuel marks k x r :
  propagate lookup structs fuel declared = Ok marks ->
  (forall y, manual y = true -> In y declared) ->
  (forall y s, defs y = Some s -> s_id s = y /\ In s structs /\ NoDup (map fst (s_fields s))) ->
  run_glue lookup defs marks manual k x [] = Ok r ->
  (forall z p, In (z, p) r <-> inside lookup defs x p z /\ manual z = true) /\ NoDup r.
Proof.
  intros E MD DS R. destruct (run_ok lookup defs marks manual) with (k := k) (x := x) (path := @nil bytes) (r := r) as [G1 G2]; auto.
  - intros y p z In' M. apply (C37_exact_partial _ _ _ _ _ E).
    induction In' as [y|y s n w p z D Hh In' IH].
    + constructor. now apply MD.
    + destruct (DS y s D) as (Ey & I & _). rewrite <- Ey. eapply owns_in; eauto.
  - intros y s D. destruct (DS y s D) as (A & _ & B). auto.
  - split; [|exact G2]. intros z p. rewrite G1. cbn [app]. split.
    + intros (q & -> & H). exact H.
    + intros H. exists p. auto.
Qed.
(** ... and it ends if no struct contains itself by value. *)
Theorem C37_glue_ends lookup defs marks manual x :
  (forall y s n z, defs y = Some s -> holds lookup s n z -> defs z <> None) ->
  defs x <> None ->
  Acc (fun z y => exists s n, defs y = Some s /\ holds lookup s n z) x ->
  exists k r, run_glue lookup defs marks manual k x [] = Ok r.
Proof.
  intros T D A. destruct (run_ex lookup defs marks manual T x A D) as [f0 H].
  exists f0. apply H. lia.
Qed.

(** A struct whose only field is an array of structs that declare Drop is not marked. *)
Theorem C37_array_refuted : exists lookup structs declared s tn y marks,
  In s structs /\ In (bs "items", TArray (TStruct tn)) (s_fields s) /\ lookup tn = Some y /\ In y declared /\
  propagate lookup structs (length structs + 1) declared = Ok marks /\ ~ In (s_id s) marks.
Proof.
  set (structs := [SDef 1 [(bs "items", TArray (TStruct (bs "File")))]; SDef 0 [(bs "fd", TOther)]]).
  exists (fun n => if beq_bytes n (bs "File") then Some 0 else None), structs, [0], (SDef 1 [(bs "items", TArray (TStruct (bs "File")))]), (bs "File"), 0, [0].
  split; [now left|]. split; [now left|]. split; [reflexivity|]. split; [now left|]. split; [reflexivity|].
  cbn. intuition discriminate.
Qed.
(** An instance of a generic struct is found by name but is not in the list the propagation
    walks (only parse_struct, parser_struct.c:1017, puts a struct there), so it is not
    marked although it holds a struct that declares Drop, and neither is a struct that
    holds the instance. *)
Theorem C37_instance_refuted : exists lookup structs (inst outer : sdef) declared marks,
  holds lookup inst (bs "v") 0 /\ In 0 declared /\
  In outer structs /\ holds lookup outer (bs "box") (s_id inst) /\
  propagate lookup structs (length structs + 1) declared = Ok marks /\
  ~ In (s_id inst) marks /\ ~ In (s_id outer) marks.
Proof.
  exists (fun n => if beq_bytes n (bs "File") then Some 0 else if beq_bytes n (bs "Box__File") then Some 1 else None),
    [SDef 2 [(bs "box", TStruct (bs "Box__File"))]; SDef 0 []],
    (SDef 1 [(bs "v", TStruct (bs "File"))]), (SDef 2 [(bs "box", TStruct (bs "Box__File"))]), [0], [0].
  split; [exists (bs "File"); split; [now left|reflexivity]|]. split; [now left|]. split; [now left|].
  split; [exists (bs "Box__File"); split; [now left|reflexivity]|]. split; [reflexivity|].
  split; cbn; intuition discriminate.
Qed.

(** A concrete case: Conn holds a Pair of Files and a pointer, declared in the wrong order. *)
Definition ex_lookup (n : bytes) : option nat :=
  if beq_bytes n (bs "File") then Some 0 else if beq_bytes n (bs "Pair") then Some 1
  else if beq_bytes n (bs "Conn") then Some 2 else None.
Definition ex_structs : list sdef :=
  [SDef 2 [(bs "p", TStruct (bs "Pair")); (bs "n", TOther); (bs "up", TPointer (TStruct (bs "Conn")))];
   SDef 1 [(bs "a", TStruct (bs "File")); (bs "b", TStruct (bs "File"))];
   SDef 0 [(bs "fd", TOther)];
   SDef 3 [(bs "up", TPointer (TStruct (bs "Conn")))]].
Definition ex_defs (y : nat) : option sdef := find (fun s => s_id s =? y) ex_structs.
Example C37_ex_marks : propagate ex_lookup ex_structs 5 [0] = Ok [2; 1; 0].
Proof. vm_compute. reflexivity. Qed.
Example C37_ex_defs : forall y s, ex_defs y = Some s -> s_id s = y /\ In s ex_structs /\ NoDup (map fst (s_fields s)).
Proof.
  intros y s E. apply find_some in E. destruct E as [I E]. apply Nat.eqb_eq in E. split; [exact E|]. split; [exact I|].
  cbn [ex_structs In] in I. repeat (destruct I as [<-|I]; [repeat constructor; vm_compute; intuition discriminate|]). destruct I.
Qed.
Example C37_ex_glue : run_glue ex_lookup ex_defs [2; 1; 0] (fun y => y =? 0) 4 2 [] =
  Ok [(0, [bs "p"; bs "a"]); (0, [bs "p"; bs "b"])].
Proof. vm_compute. reflexivity. Qed.

Print Assumptions C37_terminates.
Print Assumptions C37_exact_partial.
Print Assumptions C37_glue.
Print Assumptions C37_glue_ends.
Print Assumptions C37_array_refuted.
Print Assumptions C37_instance_refuted.
