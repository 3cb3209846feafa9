(** C65: match runs the first arm that fits. *)
From Verif Require Import Common IntLit_Spec Match_Model Match_Spec Match_Proofs.
Local Open Scope N_scope.

(** Every match over plain patterns (see Match_Spec) compiles, and runs the first arm one
    of whose alternatives fits, or none if none does.  Missing: guards, and the patterns
    the refutations below are about. *)
Theorem C65_first_partial : forall enums s tname v arms,
  plain_enums enums -> represents enums s tname v -> plain_type tname ->
  Forall (plain_arm enums s) arms ->
  exists r, run_match enums tname v (map as_arm arms) = Ok (Some r) /\ first s arms r.
Proof.
  intros enums s tname v arms PE R PT F. destruct (texts_ok enums s tname v arms PE R PT F) as (ts & r & E & C & Fi).
  exists r. split; [|exact Fi]. unfold run_match. rewrite E. cbn. now rewrite C.
Qed.

(** Guards are not generated: for every match, the guards make no difference. *)
Theorem C65_guard_refuted :
  (forall enums tname v arms,
     run_match enums tname v arms = run_match enums tname v (map (fun a => mkarm (alts a) None) arms)) /\
  run_match [] (bs "int") (VInt 5) (map as_arm [mkuarm (Some [PAtom (Num (bs "5"))]) (Some false); mkuarm None None]) = Ok (Some (Some 0%nat)) /\
  first (SInt 5) [mkuarm (Some [PAtom (Num (bs "5"))]) (Some false); mkuarm None None] (Some 1%nat).
Proof.
  splits.
  - intros enums tname v arms. unfold run_match. f_equal. induction arms as [|a arms IH]; [reflexivity|]. cbn [map texts alts]. now rewrite IH.
  - vm_compute; reflexivity.
  - cbn. split.
    + eexists. split; [reflexivity|]. split; [exact I|discriminate].
    + intros [|j] a L E; [|lia]. injection E as <-. intros [_ H]. now apply H.
Qed.

(** Patterns that go wrong: 017 is read as octal by C although the expression 017 is 17;
    0o17 does not compile; nor do a string with a bar or with two dots, and the character
    bar. *)
Theorem C65_pattern_refuted :
  let run v p := run_match [] (bs "t") v (map as_arm [mkuarm (Some [p]) None]) in
  (denotes (bs "017") 17 /\ run (VInt 17) (PAtom (Num (bs "017"))) = Ok (Some None) /\
   run (VInt 15) (PAtom (Num (bs "017"))) = Ok (Some (Some 0%nat))) /\
  (denotes (bs "0o17") 15 /\ run (VInt 15) (PAtom (Num (bs "0o17"))) = Ok None) /\
  run (VStr (bs "a|b")) (PStr (bs "a|b")) = Ok None /\
  run (VStr (bs "a..b")) (PStr (bs "a..b")) = Ok None /\
  run (VInt 124) (PAtom (Chr 124)) = Ok None.
Proof.
  cbv zeta. splits; try (vm_compute; reflexivity).
  - refine (Den [] 10 (bs "017") [] 17 P_dec _ (or_introl eq_refl)).
    change (bs "017") with (([48] ++ [49]) ++ [55]). change 17 with ((0 * 10 + 1) * 10 + 7).
    apply Num_more; [apply Num_more; [apply Num_one; apply (D_dec 10 0); lia|apply (D_dec 10 1); lia]|apply (D_dec 10 7); lia].
  - refine (Den (bs "0o") 8 (bs "17") [] 15 (P_oct _ (or_introl eq_refl)) _ (or_introl eq_refl)).
    change (bs "17") with ([49] ++ [55]). change 15 with (1 * 8 + 7).
    apply Num_more; [apply Num_one; apply (D_dec 8 1); lia|apply (D_dec 8 7); lia].
Qed.

(** An enum named Option (or Result): the conditions of its patterns are all true, so the
    first arm runs whatever the value is. *)
Theorem C65_option_refuted :
  let enums := [(bs "Option", [bs "Some"; bs "None"])] in
  let arms := [mkuarm (Some [PVariant (bs "Option") (bs "Some")]) None; mkuarm (Some [PVariant (bs "Option") (bs "None")]) None] in
  run_match enums (bs "Option__int") (VEnum 1) (map as_arm arms) = Ok (Some (Some 0%nat)).
Proof. vm_compute; reflexivity. Qed.

(** Type_Variant is not unique: with enum A { B_C } and enum A_B { X, C } the pattern
    A::B_C is tested against the tag of A_B::C. *)
Theorem C65_name_refuted :
  let enums := [(bs "A", [bs "B_C"]); (bs "A_B", [bs "X"; bs "C"])] in
  run_match enums (bs "A") (VEnum 0) (map as_arm [mkuarm (Some [PVariant (bs "A") (bs "B_C")]) None]) = Ok (Some None).
Proof. vm_compute; reflexivity. Qed.

(** An arm with 1024 bytes of patterns overflows the buffer. *)
Theorem C65_overflow_refuted : forall enums tname v a arms,
  1024 <= N.of_nat (length (join (bs "|") (map alt_text (alts a)))) ->
  run_match enums tname v (a :: arms) = UB.
Proof.
  intros enums tname v a arms L. unfold run_match. cbn [texts]. unfold pattern_text.
  destruct (N.ltb_spec (N.of_nat (length (join (bs "|") (map alt_text (alts a))))) 1024); [lia|reflexivity].
Qed.

(** Integers, characters in ranges, strings, enums *)
Definition digit_arms : list uarm :=
  [mkuarm (Some [PAtom (Num (bs "1")); PRange (Num (bs "5")) false (Num (bs "8"))]) None;
   mkuarm (Some [PRange (Chr (ch "a")) true (Chr (ch "z")); PAtom (Num (bs "0x20"))]) None;
   mkuarm None None].
Definition colours : list (bytes * list bytes) := [(bs "Shape", [bs "Dot"]); (bs "Colour", [bs "Red"; bs "Green"])].
Example C65_example :
  Forall (plain_arm [] (SInt 122)) digit_arms /\
  run_match [] (bs "int") (VInt 7) (map as_arm digit_arms) = Ok (Some (Some 0%nat)) /\
  run_match [] (bs "int") (VInt 8) (map as_arm digit_arms) = Ok (Some (Some 2%nat)) /\
  run_match [] (bs "int") (VInt 122) (map as_arm digit_arms) = Ok (Some (Some 1%nat)) /\
  plain_enums colours /\ plain_type (bs "Colour") /\
  represents colours (SEnum (bs "Colour") (bs "Green")) (bs "Colour") (VEnum 1) /\
  run_match colours (bs "Colour") (VEnum 1)
    (map as_arm [mkuarm (Some [PVariant (bs "Colour") (bs "Red")]) None; mkuarm (Some [PVariant (bs "Colour") (bs "Green")]) None])
    = Ok (Some (Some 1%nat)).
Proof.
  assert (N1 : forall c v, c = 48 + v -> v < 10 -> numeral 10 [c] v) by (intros c v -> H; constructor; now apply D_dec).
  splits; [|vm_compute; reflexivity|vm_compute; reflexivity|vm_compute; reflexivity| | | |vm_compute; reflexivity].
  - constructor; [|constructor; [|constructor; [|constructor]]]; unfold plain_arm; cbn [pats cond_if].
    + split; [reflexivity|]. split; [discriminate|]. split; [|vm_compute; reflexivity].
      constructor; [|constructor; [|constructor]]; cbn [plain_pat plain_atom].
      * exists 1. split; [lia|]. left. exists 49, []. splits; auto; try congruence; now apply N1.
      * split; [exists 5|exists 8]; (split; [lia|]); left; [exists 53, []|exists 56, []]; splits; auto; try congruence; try now apply N1.
    + split; [reflexivity|]. split; [discriminate|]. split; [|vm_compute; reflexivity].
      constructor; [|constructor; [|constructor]]; cbn [plain_pat plain_atom].
      * vm_compute. intuition congruence.
      * exists 32. split; [lia|]. right; left. exists (bs "0x"), (bs "20"). splits; auto; [now left|].
        change (bs "20") with ([50] ++ [48]). change 32 with (2 * 16 + 0). apply Num_more; [apply Num_one; apply (D_dec 16 2); lia|apply (D_dec 16 0); lia].
    + split; [reflexivity|exact I].
  - split; [|split].
    + repeat constructor; vm_compute; reflexivity.
    + repeat constructor; cbn; intuition congruence.
    + cbn. repeat constructor; cbn; intuition congruence.
  - split; intros r E; apply (f_equal (firstn 2)) in E; vm_compute in E; discriminate.
  - split; [reflexivity|]. exists [bs "Red"; bs "Green"]. split; [right; now left|vm_compute; reflexivity].
Qed.

Print Assumptions C65_first_partial.
Print Assumptions C65_guard_refuted.
Print Assumptions C65_pattern_refuted.
Print Assumptions C65_option_refuted.
Print Assumptions C65_name_refuted.
Print Assumptions C65_overflow_refuted.
