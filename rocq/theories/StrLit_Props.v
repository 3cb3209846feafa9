(** C48: string literals. *)
From Verif Require Import Common StrLit_Model StrLit_Spec StrLit_Proofs.
Local Open Scope N_scope.

(** A literal between quotes or triple quotes, without an opening brace, is emitted as one
    complete C literal that denotes the same bytes: for every content with a meaning. *)
Theorem C48_quoted text v : PlainLiteral text v \/ TripleLiteral text v -> ~ In 123 text ->
  exists out, emit_string false text = Ok (Some out) /\ CLiteral out v.
Proof.
  intros [(b & -> & D)|(b & -> & NO & D)] NB.
  - exists (34 :: esc b ++ [34]). split; [|exists (esc b); split; [reflexivity|eapply esc_denotes; eassumption]].
    apply plain_emit; [|intros r E; eapply z_plain_head; eassumption].
    intros X. apply NB. right. apply in_or_app. now left.
  - exists (34 :: esc b ++ [34]). split; [|exists (esc b); split; [reflexivity|eapply esc_denotes; eassumption]].
    apply triple_emit. intros X. apply NB. apply in_or_app. right. apply in_or_app. now left.
Qed.
(** So the bytes the C literal denotes are determined: nothing else can be read into it. *)
Theorem C48_unique text v w out : PlainLiteral text v \/ TripleLiteral text v -> ~ In 123 text ->
  emit_string false text = Ok (Some out) -> CLiteral out w -> w = v.
Proof.
  intros L NB E (b & -> & D). destruct (C48_quoted text v L NB) as (out' & E' & b' & -> & D').
  rewrite E in E'. injection E' as E'. apply app_inj_tail in E'. destruct E' as [-> _]. eapply denotes_fun; eassumption.
Qed.
(** Raw strings, as long as their text has no backslash, newline or quote.  Missing from the
    full claim: raw strings with such characters ([C48_raw_refuted]). *)
Theorem C48_raw_partial text v : RawLiteral text v -> ~ In 92 v -> ~ In 10 v -> ~ In 34 v ->
  exists out, emit_string true text = Ok (Some out) /\ CLiteral out v.
Proof.
  intros (q & Q & -> & _) B N K. exists (34 :: v ++ [34]). split; [apply raw_emit|]. exists v. split; [reflexivity|].
  induction v as [|c v IH]; [constructor|]. apply D_char.
  - split; intros ->; [apply K|apply N]; now left.
  - intros ->. apply B. now left.
  - apply IH; intros X; [apply B|apply N|apply K]; now right.
Qed.
(** A raw string with a backslash before an escape letter is not raw: for all texts around
    it, what is emitted denotes the escape's value instead of the two characters. *)
Theorem C48_raw_refuted a b e x va vb : In (e, x) simple_escapes -> e <> 34 -> Denotes c_plain a va -> Denotes c_plain b vb -> 
  ~ In 34 (a ++ b) ->
  RawLiteral (114 :: 34 :: (a ++ 92 :: e :: b) ++ [34]) (a ++ 92 :: e :: b) /\
  exists out, emit_string true (114 :: 34 :: (a ++ 92 :: e :: b) ++ [34]) = Ok (Some out) /\
    CLiteral out (va ++ x :: vb) /\ ~ CLiteral out (a ++ 92 :: e :: b).
Proof.
  intros I E34 Da Db NQ. split.
  { exists 34. split; [now left|]. split; [reflexivity|]. intros X. apply NQ. apply in_or_app.
    apply in_app_or in X. destruct X as [X|[X|[X|X]]]; [now left|discriminate|congruence|now right]. }
  exists (34 :: (a ++ 92 :: e :: b) ++ [34]). split; [apply raw_emit|].
  assert (D : Denotes c_plain (a ++ 92 :: e :: b) (va ++ x :: vb)).
  { clear NQ. induction Da as [|c r v Pc N D IH|e' x' r v I' D IH|ds r v N L F M V D IH|hs x' r v N HV S V D IH]; cbn [app].
    - now apply D_simple.
    - now apply D_char.
    - now apply D_simple.
    - rewrite <- app_assoc. apply D_octal; auto. destruct M as [M|M]; [now left|right]. destruct r; [cbn; unfold octal; lia|exact M].
    - rewrite <- app_assoc. apply D_hex; auto. destruct r; [apply is_hex_92|exact S]. }
  split; [exists (a ++ 92 :: e :: b); auto|].
  intros (b' & EB & D'). injection EB as EB. apply app_inj_tail in EB. destruct EB as [<- _].
  pose proof (denotes_fun _ _ _ D _ D') as EQ.
  (* the denotation is shorter than the text *)
  assert (K : forall s v, Denotes c_plain s v -> (length v <= length s)%nat).
  { induction 1 as [| | |ds|hs]; cbn [length]; rewrite ?app_length; unfold bytes in *; lia. }
  apply (f_equal (@length N)) in EQ. rewrite !app_length in EQ. cbn [length] in EQ. apply K in Da, Db. unfold bytes in *. lia.
Qed.
(** A raw string in apostrophes that contains a quote, and a literal between triple quotes
    that ends in a backslash, are emitted as texts that are no C literal at all. *)
Theorem C48_open_refuted :
  (exists out, emit_string true (bs "r'""'") = Ok (Some out) /\ forall v, ~ CLiteral out v) /\
  (exists out, emit_string false (bs """""""C:\""""""") = Ok (Some out) /\ forall v, ~ CLiteral out v).
Proof.
  split; (eexists; split; [vm_compute; reflexivity|]); intros v (b & E & D); injection E as E.
  - destruct b as [|c [|d b]]; [discriminate| |destruct b; discriminate]. injection E as <-.
    inversion D; subst; try discriminate. unfold c_plain in *. tauto.
  - destruct b as [|c1 [|c2 [|c3 [|c4 b]]]]; try discriminate.
    2: { exfalso. injection E as <- <- <- E. destruct b; discriminate. }
    injection E as <- <- <-.
    inversion D as [|? ? ? ? ? D1| | |]; subst; try discriminate.
    inversion D1 as [|? ? ? ? ? D2| | |]; subst; try discriminate.
    inversion D2 as [| | |ds r ? N|hs]; subst; try congruence. 
    destruct ds; [congruence|discriminate].
Qed.
(** A source that ends in a lone quote makes the compiler write out of bounds, and a literal
    that is not closed is accepted without its last character. *)
Theorem C48_unterminated_refuted :
  emit_string false (bs """") = UB /\ emit_string false (bs """abc") = Ok (Some (bs """ab""")).
Proof. split; reflexivity. Qed.

Example C48_ex_plain : PlainLiteral (bs """a\tb\x41\101""") (bs "a" ++ [9] ++ bs "bAA") /\ ~ In 123 (bs """a\tb\x41\101""").
Proof.
  split; [|cbn; intuition discriminate]. exists (bs "a\tb\x41\101"). split; [reflexivity|].
  apply D_char; [discriminate|discriminate|]. apply (D_simple _ 116 9); [cbn; tauto|].
  apply D_char; [discriminate|discriminate|].
  apply (D_hex _ (bs "41") 65); [discriminate| |cbn; intros (d & H); unfold hexdigit in H; lia|lia|].
  { change (bs "41") with [52; 49]. apply (hv_cons _ 4); [left; lia|]. apply (hv_cons _ 1); [left; lia|]. constructor. }
  apply (D_octal _ (bs "101") []); [discriminate|cbn; lia|repeat constructor; discriminate|now left|vm_compute; reflexivity|constructor].
Qed.
Example C48_ex_triple : let t := bs """""""x ""y""" ++ [10] ++ bs "z""""""" in
  TripleLiteral t (bs "x ""y""" ++ [10] ++ bs "z") /\ emit_string false t = Ok (Some (bs """x \""y\""\nz""")).
Proof.
  cbv zeta. split; [|vm_compute; reflexivity]. exists (bs "x ""y""" ++ [10] ++ bs "z"). split; [reflexivity|]. split.
  - intros (a & b & E). cbn in E. do 9 (destruct a as [|? a]; [cbn in E; try discriminate E|cbn in E; injection E as _ E]). destruct a; discriminate E.
  - cbn. repeat (apply D_char; [exact I|discriminate|]). constructor.
Qed.
Example C48_ex_raw : RawLiteral (bs "r'plain text'") (bs "plain text") /\ ~ In 92 (bs "plain text") /\ ~ In 10 (bs "plain text") /\ ~ In 34 (bs "plain text").
Proof. split; [exists 39; split; [now right|]; split; [reflexivity|]|]; cbn; intuition discriminate. Qed.
Example C48_ex_raw_refuted : In (110, 10) simple_escapes /\ Denotes c_plain (bs "a") (bs "a") /\ emit_string true (bs "r""a\nb""") = Ok (Some (bs """a\nb""")).
Proof. split; [cbn; tauto|]. split; [|reflexivity]. apply D_char; [split; discriminate|discriminate|constructor]. Qed.
Print Assumptions C48_quoted.
Print Assumptions C48_unique.
Print Assumptions C48_raw_partial.
Print Assumptions C48_raw_refuted.
Print Assumptions C48_open_refuted.
Print Assumptions C48_unterminated_refuted.
