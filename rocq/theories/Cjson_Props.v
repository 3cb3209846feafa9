(** C97: the JSON of the language server. *)
From Verif Require Import Common Cjson_Model Cjson_Spec Cjson_Proofs.

Section Props.
Context {D : Type} (show : D -> bytes) (strtod : bytes -> option (D * nat)).

(** Every JSON text, with any white space and with or without a byte order mark, is read as the value
    it denotes, if it is nested at most 1000 deep... *)
Theorem C97_read_partial : forall t v w w', denotes strtod t v -> ws w -> ws w' -> nesting v <= 1000 ->
  parse strtod (w ++ t ++ w') = Ok (Some v) /\ parse strtod ([239; 187; 191]%N ++ w ++ t ++ w') = Ok (Some v).
Proof.
  intros t v w w' H W W' N. apply Nat.leb_le in N.
  assert (J : match w' with [] => True | c :: _ => num_char c = false end) by (destruct W' as [|c l [-> |[-> |[-> | ->]]] L]; try exact I; reflexivity).
  rewrite (parse_reads strtod t v w w' H W J), (parse_bom strtod t v w w' H W J), N. auto.
Qed.
(** ... and no deeper one is. *)
Theorem C97_deep_refuted : forall t v w, denotes strtod t v -> ws w -> 1000 < nesting v -> parse strtod (w ++ t) = Ok None.
Proof. intros t v w H W N. rewrite <- (app_nil_r t), (parse_reads strtod t v w [] H W I). destruct (Nat.leb_spec (nesting v) 1000); [lia|reflexivity]. Qed.
(** What is written for a value, on one line or formatted, is a JSON text that denotes it; the room
    reserved for a string is exactly what is written... *)
Theorem C97_write : forall fmt v, writable strtod show v -> exists t, print show fmt 0 v = Ok t /\ denotes strtod t v.
Proof. intros fmt v. apply print_denotes. Qed.
(** ... so that it is read back as the value. *)
Theorem C97_round_trip : forall fmt v, writable strtod show v -> nesting v <= 1000 -> exists t, print show fmt 0 v = Ok t /\ parse strtod t = Ok (Some v).
Proof.
  intros fmt v W N. destruct (print_denotes show strtod fmt v 0 W) as (t & E & H). exists t. split; auto.
  rewrite <- (app_nil_r t), <- (app_nil_l (t ++ [])), (parse_reads strtod t v [] [] H (Forall_nil _) I). apply Nat.leb_le in N. now rewrite N.
Qed.
(** Every text whatever is read to a value or to an error, without reading outside the buffer or
    writing outside what was allocated for a string. *)
Theorem C97_safe : forall text, exists o, parse strtod text = Ok o.
Proof.
  intros text. unfold parse. cbv zeta.
  match goal with |- context [skip_ws ?x] => destruct (proj1 (safe strtod (2 * length x + 1)) 0 (skip_ws x)) as (o & E & _) end.
  - match goal with |- context [skip_ws ?x] => pose proof (skip_ws_len x) end. lia.
  - rewrite E. cbn [bind]. eauto.
Qed.
(** False: only JSON texts are accepted.  What follows the value is not looked at... *)
Theorem C97_junk_refuted : forall t v c junk, denotes strtod t v -> nesting v <= 1000 -> num_char c = false -> parse strtod (t ++ c :: junk) = Ok (Some v).
Proof. intros t v c junk H N J. apply Nat.leb_le in N. rewrite <- (app_nil_l (t ++ c :: junk)), (parse_reads strtod t v [] (c :: junk) H (Forall_nil _) J), N. reflexivity. Qed.
(** ... and four characters that are not hexadecimal digits are taken for a NUL. *)
Theorem C97_digits_refuted : forall a b c d, Forall (fun x => x <> 34 /\ x <> 92)%N [a; b; c; d] -> (forall v, ~ hex a v) ->
  parse strtod (bs """\u" ++ [a; b; c; d] ++ bs """") = Ok (Some (JStr [])).
Proof.
  intros a b c d F H. unfold parse.
  assert (X : hex_value a = None).
  { destruct (hex_value a) as [v|] eqn:E; [|reflexivity]. exfalso. unfold hex_value in E.
    destruct ((48 <=? a) && (a <=? 57))%N eqn:K; [apply andb_prop in K as [K1 K2]; apply N.leb_le in K1, K2; injection E as <-; apply (H (a - 48)%N); replace a with (48 + (a - 48))%N at 1 by lia; constructor; lia|].
    destruct ((65 <=? a) && (a <=? 70))%N eqn:K3; [apply andb_prop in K3 as [K1 K2]; apply N.leb_le in K1, K2; injection E as <-; apply (H (10 + (a - 65))%N); replace a with (65 + (a - 65))%N at 1 by lia; constructor; lia|].
    destruct ((97 <=? a) && (a <=? 102))%N eqn:K4; [apply andb_prop in K4 as [K1 K2]; apply N.leb_le in K1, K2; injection E as <-; apply (H (10 + (a - 97))%N); replace a with (97 + (a - 97))%N at 1 by lia; constructor; lia|]. discriminate. }
  change ((bs """\u" ++ [a; b; c; d] ++ bs """") ++ [0%N]) with (34 :: 92 :: 117 :: a :: b :: c :: d :: 34 :: [0])%N.
  change (is_prefix [239; 187; 191]%N (34 :: 92 :: 117 :: a :: b :: c :: d :: 34 :: [0])%N) with false. rewrite andb_false_r. cbv iota.
  change (skip_ws (34 :: 92 :: 117 :: a :: b :: c :: d :: 34 :: [0])%N) with (34 :: 92 :: 117 :: a :: b :: c :: d :: 34 :: [0])%N.
  rewrite Nat.add_1_r, pv_head by discriminate. unfold value_body. change (34 =? 34)%N with true. cbv iota. unfold parse_string. change (negb (34 =? 34)%N) with false. cbv iota.
  assert (S : scan (92 :: 117 :: [a; b; c; d] ++ 34 :: [0])%N = Some ((92 :: 117 :: [a; b; c; d] ++ [])%N, 1, [0%N])) by (apply scan_esc, scan_plain; [exact F|reflexivity]).
  cbn [app] in S. rewrite S. rewrite dec_u. unfold parse_hex4. rewrite X. reflexivity.
Qed.
(** False: every string is read whole.  One with a NUL in it, written \u0000, ends there. *)
Theorem C97_nul_refuted : forall t s, means t s -> parse strtod (34%N :: t ++ [34%N]) = Ok (Some (JStr (cstr s))) /\ (In 0%N s -> cstr s <> s).
Proof.
  intros t s M. split.
  - unfold parse. cbn [app]. rewrite <- app_assoc. cbn [app].
    change (is_prefix [239; 187; 191]%N (34%N :: t ++ [34%N; 0%N])) with false. rewrite andb_false_r. cbv iota.
    change (skip_ws (34%N :: t ++ [34%N; 0%N])) with (34%N :: t ++ [34%N; 0%N]). rewrite Nat.add_1_r, pv_head by discriminate. unfold value_body. change (34 =? 34)%N with true. cbv iota.
    rewrite (string_reads t s [0%N] M). reflexivity.
  - intros X E. rewrite <- E in X. clear -X. induction s as [|c s IH]; [destruct X|]. cbn [cstr] in X. destruct (N.eqb_spec c 0); [destruct X|]. destruct X as [->|X]; [contradiction|auto].
Qed.
End Props.
Print Assumptions C97_read_partial.
Print Assumptions C97_deep_refuted.
Print Assumptions C97_write.
Print Assumptions C97_round_trip.
Print Assumptions C97_safe.
Print Assumptions C97_junk_refuted.
Print Assumptions C97_digits_refuted.
Print Assumptions C97_nul_refuted.

(** The hypotheses are met: numbers of one digit. *)
Definition digit_strtod (s : bytes) : option (N * nat) := match s with c :: _ => if ((48 <=? c) && (c <=? 57))%N then Some ((c - 48)%N, 1) else None | [] => None end.
Definition digit_show (d : N) : bytes := [(48 + d)%N].
Example C97_case :
  let v := JObj [(bs "id", JNum 7%N); (bs "text", JArr [JStr ([34; 10; 195; 169; 1]%N); JNull; JArr []]); ([], JBool true)] in
  writable digit_strtod digit_show v /\ nesting v = 3 /\
  print digit_show false 0 v = Ok ((bs "{""id"":7,""text"":[""\""\n") ++ [195; 169]%N ++ (bs "\u0001"",null,[]],"""":true}")) /\
  parse digit_strtod (bs " [ 1 , ""\ud83d\uDE00\/"" ] ") = Ok (Some (JArr [JNum 1%N; JStr ([240; 159; 152; 128; 47]%N)])) /\
  means (bs "\ud83d\uDE00\/") ([240; 159; 152; 128]%N ++ [47]%N).
Proof.
  cbv zeta. split; [|split; [reflexivity|split; [vm_compute; reflexivity|split; [vm_compute; reflexivity|]]]].
  - constructor. constructor; [split; [cbn; intuition discriminate|]|constructor; [split; [cbn; intuition discriminate|]|constructor; [split; [cbn; intuition discriminate|constructor]|constructor]]].
    + apply W_num; [|reflexivity]. split; [constructor; [left; vm_compute; split; discriminate|constructor]|]. exists 55%N, []. split; [reflexivity|right; vm_compute; split; discriminate].
    + constructor. constructor; [constructor; cbn; intuition discriminate|]. constructor; [constructor|]. constructor; [constructor; constructor|constructor].
  - change (bs "\ud83d\uDE00\/") with (92 :: 117 :: bs "d83d" ++ 92 :: 117 :: bs "DE00" ++ bs "\/")%N.
    change [240; 159; 152; 128]%N with (utf8 (65536 + 61 * 1024 + 512)). 
    assert (H09 : forall n, (n < 10)%N -> hex (48 + n) n) by (intros; now constructor).
    apply M_pair.
    + exists 100%N, 56%N, 51%N, 100%N, 13%N, 8%N, 3%N, 13%N. split; [reflexivity|]. split; [apply (Hex_af 3); reflexivity|]. split; [apply (Hex_09 8); reflexivity|]. split; [apply (Hex_09 3); reflexivity|]. split; [apply (Hex_af 3); reflexivity|reflexivity].
    + reflexivity.
    + exists 68%N, 69%N, 48%N, 48%N, 13%N, 14%N, 0%N, 0%N. split; [reflexivity|]. split; [apply (Hex_AF 3); reflexivity|]. split; [apply (Hex_AF 4); reflexivity|]. split; [apply (Hex_09 0); reflexivity|]. split; [apply (Hex_09 0); reflexivity|reflexivity].
    + reflexivity.
    + apply (M_short 47 47); [cbn; tauto|constructor].
Qed.
