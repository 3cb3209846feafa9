(** C43 and C44: semantic tokens and position lookup in the language server. *)
From Verif Require Import Common LspIndex_Model LspIndex_Spec LspIndex_Proofs.
From Coq Require Import Permutation Sorting.Sorted.
Local Open Scope Z_scope.

(** Whatever tokens the walk pushes and whatever order qsort chooses among equals, what the
    editor decodes is in strictly increasing document order (so no position twice), consists
    of pushed tokens, and has a token at every position where one was pushed. *)
Theorem C43_tokens pushes sorted decoded :
  qsort_result (build pushes) sorted ->
  decoded = decode 0 0 (semantic_data sorted) ->
  StronglySorted before decoded /\
  (forall t, In t decoded -> In t pushes) /\
  (forall t, In t pushes -> 0 <= t_line t -> 0 <= t_col t -> exists u, In u decoded /\ same_place t u).
Proof.
  intros [P S] ->. unfold semantic_data.
  assert (I : forall t, In t sorted <-> In t (build pushes)) by (intros t; split; apply Permutation_in; auto using Permutation_sym).
  rewrite decode_encode; auto.
  2: { intros t T. apply I, build_spec in T. lia. }
  split; [|split].
  - apply dedup_sorted; [exact S|discriminate].
  - intros t T. apply dedup_in, I, build_spec in T. tauto.
  - intros t T L C. destruct (dedup_complete sorted None t) as [H|(u & U & _)]; [|exact H|discriminate].
    apply I, build_spec. auto.
Qed.
Example C43_ex : let pushes := [Tok 3 4 1 0 0; Tok 0 5 2 1 1; Tok (-1) 0 1 0 0; Tok 3 4 9 9 0; Tok 3 9 1 2 0] in
  let sorted := [Tok 0 5 2 1 1; Tok 3 4 1 0 0; Tok 3 4 9 9 0; Tok 3 9 1 2 0] in
  qsort_result (build pushes) sorted /\
  semantic_data sorted = [0; 5; 2; 1; 1;  3; 4; 1; 0; 0;  0; 5; 1; 2; 0] /\
  decode 0 0 (semantic_data sorted) = [Tok 0 5 2 1 1; Tok 3 4 1 0 0; Tok 3 9 1 2 0].
Proof.
  cbv zeta. split; [|split; reflexivity]. split; [|repeat constructor; vm_compute; discriminate].
  unfold build. cbn. apply perm_swap.
Qed.

(** After any history of recorded definitions and references, a lookup that answers gives
    the range of the most recent operation whose range contains the position; if it gives
    nothing, no operation recorded such a range. *)
Theorem C44_lookup ops line col :
  match find_at (run_index ops) line col with
  | Some r => contains r line col /\
      exists earlier o later, ops = earlier ++ o :: later /\ records o r /\
        forall o' r', In o' later -> records o' r' -> ~ contains r' line col
  | None => forall o r, In o ops -> records o r -> ~ contains r line col
  end.
Proof.
  induction ops as [|o ops IH] using rev_ind.
  - cbn. intros o r [].
  - rewrite run_index_app. destruct (step_spec (run_index ops) o) as [(r & R & ->)|[-> N]].
    + unfold find_at in *. rewrite find_loop_app. destruct (_ && _ && _ && _) eqn:E.
      * apply contains_dec in E. split; [exact E|]. exists ops, o, []. split; [reflexivity|]. split; [exact R|]. intros o' r' [].
      * assert (NC : ~ contains r line col) by (intros C; apply contains_dec in C; congruence).
        destruct (find_loop None line col (run_index ops)) as [q|].
        -- destruct IH as (C & a & p & b & -> & P & L). split; [exact C|]. exists a, p, (b ++ [o]).
           split; [now rewrite <- app_assoc|]. split; [exact P|]. intros o' r' I R'. apply in_app_or in I.
           destruct I as [I|[<-|[]]]; [eauto|]. now rewrite (records_fun _ _ _ R' R).
        -- intros o' r' I R'. apply in_app_or in I. destruct I as [I|[<-|[]]]; [eauto|]. now rewrite (records_fun _ _ _ R' R).
    + destruct (find_at (run_index ops) line col) as [q|].
      * destruct IH as (C & a & p & b & -> & P & L). split; [exact C|]. exists a, p, (b ++ [o]).
        split; [now rewrite <- app_assoc|]. split; [exact P|]. intros o' r' I R'. apply in_app_or in I.
        destruct I as [I|[<-|[]]]; [eauto|]. destruct (N _ R').
      * intros o' r' I R'. apply in_app_or in I. destruct I as [I|[<-|[]]]; [eauto|]. destruct (N _ R').
Qed.
Example C44_ex : find_at (run_index [AddDef (Token 3 5 4) 7; AddRef (Token 0 1 1) (Token 3 5 4) 8;
    AddRef (Token 3 7 1) (Token 1 1 1) 9; AddDef (Token 4 5 4) 10]) 2 6 = Some (Range 2 6 2 7 (Some (0, 0)) 9).
Proof. reflexivity. Qed.

Print Assumptions C43_tokens.
Print Assumptions C44_lookup.
