(** C67: embed puts exactly the bytes of the file into the program. *)
From Verif Require Import Common IntLit_Model IntLit_Spec IntLit_Proofs StrLit_Spec Embed_Model Embed_Spec Embed_Proofs.
Local Open Scope N_scope.

(** For every file shorter than 2^31 bytes whose name has at most 255 characters: without a
    type or as a slice, the initialiser is the slice of exactly the file's bytes and its length; as
    an array (of another type than char, see below), the array of these bytes; as a
    string, a C string literal denoting them.  A file that cannot be read stops the compiler. *)
Theorem C67_bytes_partial : forall fs name,
  N.of_nat (length name) < 256 ->
  (fs name = None -> forall t, parse_embed fs ([34] ++ name ++ [34]) t = Panic) /\
  forall file, fs name = Some file -> Forall (fun b => b < 256) file -> N.of_nat (length file) < 2 ^ 31 ->
  (exists text, parse_embed fs ([34] ++ name ++ [34]) EDefault = Ok text /\ c_slice (bs "char") text file) /\
  (forall ty, (length ty <= 64)%nat ->
     exists text, parse_embed fs ([34] ++ name ++ [34]) (EArray ty 0) = Ok text /\ c_slice ty text file) /\
  (forall ty n, (length ty <= 64)%nat -> ty <> bs "char" -> is_prefix (bs "Slice_") ty = false -> 0 < n ->
     exists text, parse_embed fs ([34] ++ name ++ [34]) (EArray ty n) = Ok text /\ c_array ty text file) /\
  (forall ty, ty = bs "string" \/ ty = bs "char*" ->
     exists text, parse_embed fs ([34] ++ name ++ [34]) (EOther ty) = Ok text /\ c_string text file).
Proof.
  intros fs name L.
  assert (forall t, parse_embed fs ([34] ++ name ++ [34]) t = match fs name with None => Panic | Some file => embed_bytes t file end) as P.
  { intros t. unfold parse_embed. rewrite !app_length. cbn [length]. cbn [app skipn].
    replace (1 + (length name + 1) - 2)%nat with (length name) by lia. rewrite firstn_app, firstn_all, Nat.sub_diag. cbn [firstn]. rewrite app_nil_r.
    replace (1 + (length name + 1) <? 2)%nat with false by (symmetry; apply Nat.ltb_ge; lia).
    replace (N.to_nat 256 <=? length name)%nat with false by (symmetry; apply Nat.leb_gt; lia). reflexivity. }
  split; [intros E t; now rewrite P, E|]. intros file E B S.
  assert (forall ty o, (length ty <= 64)%nat -> o = bs "(Slice_" ++ ty ++ bs "){.data=(" ++ ty ++ bs "[]){" ->
    c_slice ty (o ++ els file ++ bs "},.len=" ++ print_llu (N.of_nat (length file)) ++ bs ",.cap=" ++ print_llu (N.of_nat (length file)) ++ bs "}") file) as Sl.
  { intros ty o Lt ->. exists (bs "(" ++ ty ++ bs "[]){" ++ els file ++ bs "}"), (print_llu (N.of_nat (length file))). splits.
    - change (bs "},.len=") with (bs "}" ++ bs ",.len="). change (bs "){.data=(") with (bs "){.data=" ++ bs "("). now rewrite <- !app_assoc.
    - exists (els file). split; [reflexivity|now apply els_ok].
    - now apply len_ok. }
  splits.
  - rewrite P, E. eexists. split; [eapply embed_other; [reflexivity|reflexivity|reflexivity|exact S|cbn; lia]|].
    apply (Sl (bs "char")); [cbn; lia|reflexivity].
  - intros ty Lt. rewrite P, E. eexists. split; [eapply embed_other|].
    + unfold embed_head. change (0 <? 0) with false. cbv iota.
      replace (length ty + 7 <=? N.to_nat 256)%nat with true by (symmetry; apply Nat.leb_le; lia). reflexivity.
    + apply is_str_false; discriminate.
    + reflexivity.
    + exact S.
    + rewrite !app_length. cbn [length bs String.list_ascii_of_string map]. cbn. lia.
    + apply Sl; [exact Lt|reflexivity].
  - intros ty n Lt Ch Pf Pn. rewrite P, E. apply N.ltb_lt in Pn. eexists. split; [eapply embed_other|].
    + unfold embed_head. rewrite Pn. reflexivity.
    + apply is_str_false.
      * intros X. apply (f_equal (@rev N)) in X. rewrite rev_app_distr in X. discriminate.
      * intros X. apply Ch. change (bs "char*") with (bs "char" ++ bs "*") in X. now apply app_inj_tail in X.
    + reflexivity.
    + exact S.
    + rewrite !app_length. cbn. lia.
    + assert (is_prefix (bs "(Slice_") (bs "(" ++ ty ++ bs "[]){") = false) as ->.
      { cbn [app]. change (bs "(") with [40]. cbn [app]. change (bs "(Slice_") with (40 :: bs "Slice_"). cbn [is_prefix]. rewrite N.eqb_refl. cbn [andb].
        destruct (is_prefix (bs "Slice_") (ty ++ bs "[]){")) eqn:X; [|reflexivity].
        change (bs "[]){") with (91 :: bs "]){") in X. apply prefix_app in X; [congruence|].
        cbn. intuition discriminate. }
      exists (els file). split; [now rewrite <- !app_assoc|now apply els_ok].
  - intros ty T. rewrite P, E. eexists. split; [apply embed_string; [destruct T as [-> | ->]; reflexivity|exact S]|].
    exists (34 :: escs file ++ [34]). split; [reflexivity|]. exists (escs file). split; [reflexivity|now apply escs_ok].
Qed.

(** As an array of char the initialiser is no C expression: whatever the file, its brace is
    never closed and it ends with a quote that no other matches. *)
Theorem C67_char_array_refuted : forall n file, 0 < n -> Forall (fun b => b < 256) file -> N.of_nat (length file) < 2 ^ 31 ->
  exists esc, embed_bytes (EArray (bs "char") n) file = Ok (bs "(char[]){" ++ esc ++ [34]) /\
    ~ In 125 (bs "(char[]){" ++ esc ++ [34]) /\ ~ In 34 (bs "(char[]){" ++ esc).
Proof.
  intros n file P B S. apply N.ltb_lt in P. exists (escs file). splits.
  - unfold embed_bytes, embed_head. rewrite P. cbn [bind]. cbv zeta.
    change (beq_bytes (bs "char" ++ bs "*") (bs "string") || beq_bytes (bs "char" ++ bs "*") (bs "char*")) with true. cbv iota.
    fold (escs file).
    replace (2 ^ 31 <=? N.of_nat (length file)) with false by (symmetry; apply N.leb_gt; exact S). cbn [orb].
    match goal with |- (if ?a <? ?b then _ else _) = _ => replace (a <? b) with false; [now rewrite <- !app_assoc|symmetry; apply N.ltb_ge] end.
    rewrite !app_length, escs_length. cbn. lia.
  - intros X. rewrite !in_app_iff in X. destruct X as [X|[X|X]].
    + cbn in X. intuition discriminate.
    + pose proof (escs_chars file B) as F. rewrite Forall_forall in F. now apply F in X.
    + cbn in X. intuition discriminate.
  - intros X. rewrite !in_app_iff in X. destruct X as [X|X].
    + cbn in X. intuition discriminate.
    + pose proof (escs_chars file B) as F. rewrite Forall_forall in F. now apply F in X.
Qed.

(** The size written in the type is not looked at: the array gets as many elements as the file
    has bytes, and its type says nothing of them. *)
Theorem C67_array_size_refuted : forall fs tok ty n m, 0 < n -> 0 < m ->
  parse_embed fs tok (EArray ty n) = parse_embed fs tok (EArray ty m).
Proof.
  intros fs tok ty n m N M. apply N.ltb_lt in N. apply N.ltb_lt in M.
  unfold parse_embed, embed_bytes, embed_head. now rewrite N, M.
Qed.

(** As a string a file with a zero byte is cut off there. *)
Theorem C67_zero_refuted : forall a b, ~ In 0 a -> Forall (fun x => x < 256) (a ++ 0 :: b) ->
  N.of_nat (length (a ++ 0 :: b)) < 2 ^ 31 ->
  exists text, embed_bytes (EOther (bs "string")) (a ++ 0 :: b) = Ok text /\ c_string text (a ++ 0 :: b) /\
    c_view (a ++ 0 :: b) = a.
Proof.
  intros a b N B S. eexists. splits; [apply embed_string; [reflexivity|exact S]| |].
  - eexists. split; [reflexivity|]. eexists. split; [reflexivity|now apply escs_ok].
  - clear B S. revert N. induction a as [|x a IH]; intros N; [reflexivity|]. cbn [app c_view].
    destruct (N.eqb_spec x 0) as [->|_]; [elim N; now left|]. rewrite IH; [reflexivity|]. intros X. apply N. now right.
Qed.

(** A name of 256 characters or more is written past its buffer. *)
Theorem C67_name_refuted : forall fs name t, 256 <= N.of_nat (length name) -> parse_embed fs ([34] ++ name ++ [34]) t = UB.
Proof.
  intros fs name t L. unfold parse_embed. rewrite !app_length. cbn [length].
  replace (1 + (length name + 1) - 2)%nat with (length name) by lia.
  replace (N.to_nat 256 <=? length name)%nat with true by (symmetry; apply Nat.leb_le; lia). now rewrite orb_true_r.
Qed.

(** Every variable whose name begins with embed is taken for the keyword when it initialises
    another, and stops the compiler. *)
Theorem C67_prefix_refuted : forall fs rest next,
  declare_init fs true (bs "embed" ++ rest) next false = Panic.
Proof. reflexivity. Qed.

(** A file of four bytes, one of them zero *)
Example C67_example :
  let fs n := if beq_bytes n (bs "a.bin") then Some [65; 0; 10; 255] else None in
  let tok := [34] ++ bs "a.bin" ++ [34] in
  parse_embed fs tok EDefault = Ok (bs "(Slice_char){.data=(char[]){0x41,0x00,0x0A,0xFF,},.len=4,.cap=4}") /\
  parse_embed fs tok (EArray (bs "u8") 4) = Ok (bs "(u8[]){0x41,0x00,0x0A,0xFF,}") /\
  parse_embed fs tok (EOther (bs "string")) = Ok (bs "(char*)" ++ [34] ++ bs "\x41\x00\x0A\xFF" ++ [34]) /\
  c_view [65; 0; 10; 255] = [65].
Proof. cbv zeta. splits; vm_compute; reflexivity. Qed.

Print Assumptions C67_bytes_partial.
Print Assumptions C67_char_array_refuted.
Print Assumptions C67_array_size_refuted.
Print Assumptions C67_zero_refuted.
Print Assumptions C67_name_refuted.
Print Assumptions C67_prefix_refuted.
