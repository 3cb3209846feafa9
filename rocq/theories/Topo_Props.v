(** C36: the order in which type definitions are emitted. *)
From Verif Require Import Common Topo_Model Topo_Spec Topo_Proofs.
From Coq Require Import Permutation.
Local Open Scope nat_scope.

(** Nothing is lost and nothing is emitted twice: the emitted list is the declared structs,
    enums and traits, each once, in some order. *)
Theorem C36_permutation head : filter is_type_node head <> [] ->
  Permutation (topo_sort_structs head) (filter is_type_node head).
Proof.
  unfold topo_sort_structs. set (l := filter is_type_node head). intros NE.
  assert (X : Permutation (map (node_at l) (final_order l)) l).
  { rewrite (Permutation_map (node_at l) (Topo_Proofs.final_perm_any l)).
    now rewrite map_node_at. }
  destruct l; [contradiction|exact X].
Qed.

(** A type from which no cycle of by-value containment is reachable comes after every type
    it holds by value.  [order] lists the positions, in the list of declared types, of the
    types in the order they are emitted.  Missing from the full claim: a type written with
    a leading "const", see [C36_const_refuted]. *)
Theorem C36_order_partial head : good_names (filter is_type_node head) ->
  let l := filter is_type_node head in
  l <> [] ->
  exists order, Permutation order (seq 0 (length l)) /\
    map Some (topo_sort_structs head) = map (nth_error l) order /\
    forall i j, acyclic_from l i -> needs l i j ->
      exists before between after, order = before ++ j :: between ++ i :: after.
Proof.
  intros GN l NE. exists (final_order l). split; [apply Topo_Proofs.final_perm_any|]. split.
  - unfold topo_sort_structs. fold l. destruct l eqn:E; [contradiction|]. rewrite map_map. apply map_ext_in.
    intros i Hi. apply (Permutation_in _ (Topo_Proofs.final_perm_any _)) in Hi. apply in_seq in Hi.
    unfold node_at. symmetry. apply nth_error_nth'. lia.
  - intros i j. now apply final_before.
Qed.

(** A field whose type is written "const B" holds a [B], but the sort does not see it. *)
Theorem C36_const_refuted : exists head l,
  l = filter is_type_node head /\ good_names l /\
  nth_error l 0 = Some (NStruct (bs "A") [Some (bs "const " ++ bs "B")]) /\
  nth_error l 1 = Some (NStruct (bs "B") []) /\
  topo_sort_structs head = l.
Proof.
  exists [NStruct (bs "A") [Some (bs "const B")]; NStruct (bs "B") []]. eexists. split; [reflexivity|].
  split; [|split; [|split]]; try reflexivity.
  intros n m [<-|[<-|[]]] T; cbn in T; subst m; split; vm_compute; intuition discriminate.
Qed.

(** The hypotheses are met by a list declared in the wrong order, holding a struct through
    an array and an enum through a struct, together with a cycle elsewhere. *)
Definition ex_head : list node :=
  [NOther;
   NStruct (bs "Outer") [Some (bs "int"); Some (bs "struct Mid[4]"); Some (bs "Outer*")];
   NStruct (bs "Mid") [Some (bs "Kind")];
   NTrait (bs "Show");
   NEnum (bs "Kind") [None; Some (bs "Leaf")];
   NStruct (bs "Leaf") [Some (bs "Outer*")]].
Example C36_ex : topo_sort_structs ex_head =
  [NTrait (bs "Show"); NStruct (bs "Leaf") [Some (bs "Outer*")]; NEnum (bs "Kind") [None; Some (bs "Leaf")];
   NStruct (bs "Mid") [Some (bs "Kind")];
   NStruct (bs "Outer") [Some (bs "int"); Some (bs "struct Mid[4]"); Some (bs "Outer*")]].
Proof. vm_compute. reflexivity. Qed.
Lemma ex_good : good_names (filter is_type_node ex_head).
Proof.
  intros n m I T. cbn [ex_head filter is_type_node In] in I.
  repeat (destruct I as [<-|I]; [cbn in T; try contradiction; subst m; split; vm_compute; intuition discriminate|]).
  destruct I.
Qed.
Example C36_needs : needs (filter is_type_node ex_head) 0 1.
Proof.
  split; [discriminate|]. eexists _, _. split; [reflexivity|]. split; [reflexivity|].
  exists (bs "struct Mid[4]"), (bs "Mid"). split; [right; now left|]. split; [reflexivity|].
  split; [vm_compute; intuition discriminate|].
  exists (bs "struct "), (bs "[4]"). split; [right; now left|]. split; [reflexivity|].
  right. eexists _, _. split; [reflexivity|]. now left.
Qed.
(** Leaf is at the bottom and Kind holds only Leaf. *)
Example C36_acyclic : acyclic_from (filter is_type_node ex_head) 3.
Proof.
  assert (N : forall i j a b m, nth_error (filter is_type_node ex_head) i = Some a ->
     nth_error (filter is_type_node ex_head) j = Some b -> dep_name b = Some m ->
     struct_depends_on a m = false -> ~ needs (filter is_type_node ex_head) i j).
  { intros i j a b m Ha Hb D F (_ & a' & b' & Ha' & Hb' & H). rewrite Ha in Ha'. rewrite Hb in Hb'.
    injection Ha' as <-. injection Hb' as <-.
    apply (depends_holds _ ex_good a b m (nth_error_In _ _ Hb) D) in H. congruence. }
  assert (L : forall j, needs (filter is_type_node ex_head) 4 j -> False).
  { intros [|[|[|[|[|j]]]]] H.
    - eapply (N 4 0); try reflexivity; exact H.
    - eapply (N 4 1); try reflexivity; exact H.
    - destruct H as (_ & a & b & _ & Hb & ty & m & _ & T & _). injection Hb as <-. exact T.
    - eapply (N 4 3); try reflexivity; exact H.
    - now destruct H as [H _].
    - destruct H as (_ & a & b & _ & Hb & _). now destruct j. }
  constructor. intros j H. destruct j as [|[|[|[|[|j]]]]].
  - exfalso; eapply (N 3 0); try reflexivity; exact H.
  - exfalso; eapply (N 3 1); try reflexivity; exact H.
  - destruct H as (_ & a & b & _ & Hb & ty & m & _ & T & _). injection Hb as <-. destruct T.
  - now destruct H as [H _].
  - constructor. intros j H'. destruct (L j H').
  - destruct H as (_ & a & b & _ & Hb & _). now destruct j.
Qed.

Print Assumptions C36_permutation.
Print Assumptions C36_order_partial.
Print Assumptions C36_const_refuted.
