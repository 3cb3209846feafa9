(** C98: the line editor of the REPL. *)
From Verif Require Import Common Edit_Model Edit_Spec Edit_Proofs.

(** Whatever keys are pressed, the line returned at Enter is the text of the abstract editor. *)
Theorem C98_edit : forall hist level ks rest,
  Forall no_nul hist -> Forall typed ks ->
  readline hist level (flat_map sent ks ++ 13%N :: rest) = Ok (Line (v_text (presses hist ks (start hist level))), rest).
Proof.
  intros hist level ks rest LO T. unfold readline. destruct (rel_init hist level) as (s & -> & R & _). cbn [bind].
  destruct (presses_ok hist ks LO (start hist level) s (13%N :: rest) R T) as (s' & -> & R' & _). now apply enter_ok.
Qed.
Example C98_edit_ex :
  let ks := [Char 97; Char 99; Left; Char 98; Up; Up; End; Char 33; Down; Down; Home; Char 62; End; Char 100; Back]%N in
  Forall typed ks /\ v_text (presses [bs "one"; bs "two"] ks (start [bs "one"; bs "two"] 0)) = bs ">abc".
Proof. split; [repeat constructor; discriminate|reflexivity]. Qed.

(** No byte sequence makes the editor leave its buffers; it returns a C string. *)
Theorem C98_safe : forall hist level input,
  Forall no_nul hist ->
  exists o used rest, readline hist level input = Ok (o, rest) /\ input = used ++ rest /\
    (o = Eof \/ exists l, o = Line l /\ no_nul l).
Proof.
  intros hist level input LO. unfold readline. destruct (init_ok hist level) as (s & -> & H & P & (F1 & F2 & F3 & F4) & _). cbn [bind].
  destruct (edit_ok hist LO (length input) input s) as (o & r & E & G & u & U); auto.
  - unfold wf. rewrite F1, F2, F4. cbn. splits; eauto; try lia. discriminate.
  - exists o, u, r. splits; auto. destruct o; eauto.
Qed.
Example C98_safe_ex : exists l, readline [bs "x"] 1 [27; 91; 51; 18; 120; 9; 0; 255; 21; 11; 27]%N = Ok (Line l, []).
Proof. eexists. vm_compute. reflexivity. Qed.

(** Ctrl+C gives an empty line; Ctrl+D ends the session on an empty line and is ignored on others. *)
Theorem C98_control : forall hist level ks ks' rest,
  Forall no_nul hist -> Forall typed ks -> Forall typed ks' ->
  readline hist level (flat_map sent ks ++ 3%N :: rest) = Ok (Line [], rest) /\
  (v_text (presses hist ks (start hist level)) = [] ->
     readline hist level (flat_map sent ks ++ 4%N :: rest) = Ok (Eof, rest)) /\
  (v_text (presses hist ks (start hist level)) <> [] ->
     readline hist level (flat_map sent ks ++ 4%N :: flat_map sent ks' ++ 13%N :: rest) =
     Ok (Line (v_text (presses hist (ks ++ ks') (start hist level))), rest)).
Proof.
  intros hist level ks ks' rest LO T T'. unfold readline. destruct (rel_init hist level) as (s & -> & R & _). cbn [bind].
  assert (K : forall r, exists s', edit hist (flat_map sent ks ++ r) s = edit hist r s' /\ rel hist (presses hist ks (start hist level)) s').
  { intros r. destruct (presses_ok hist ks LO (start hist level) s r R T) as (s' & E & R' & _). eauto. }
  splits.
  - destruct (K (3%N :: rest)) as (s' & -> & _). reflexivity.
  - intros E. destruct (K (4%N :: rest)) as (s' & -> & (H & _)). rewrite E in H. destruct H as (_ & _ & L & _).
    rewrite edit_eq. change (4 =? 27)%N with false. cbv iota. unfold key. cbn [bind]. rewrite L. reflexivity.
  - intros E. destruct (K (4%N :: flat_map sent ks' ++ 13%N :: rest)) as (s' & -> & R').
    pose proof R' as (H & _). pose proof H as (_ & _ & L & _).
    rewrite edit_eq. change (4 =? 27)%N with false. cbv iota.
    replace (key hist 4 s') with (@Ok act (Go s')).
    + cbn [bind]. destruct (presses_ok hist ks' LO _ s' (13%N :: rest) R' T') as (s2 & -> & R2 & _).
      unfold presses in *. rewrite fold_left_app. now apply enter_ok.
    + change (key hist 4 s') with (@Ok act (if e_len s' =? 0 then Stop Eof else Go s')).
      destruct (Nat.eqb_spec (e_len s') 0) as [Z0|]; [|reflexivity]. exfalso. apply E. apply length_zero_iff_nil. congruence.
Qed.
Example C98_control_ex : v_text (presses [] [Char 97; Back]%N (start [] 0)) = [] /\
  v_text (presses [] [Char 97; Left]%N (start [] 0)) <> [].
Proof. split; [reflexivity|discriminate]. Qed.

(** Ctrl+R, a text and [k] more Ctrl+R find the entry that has [k] more recent ones with that text. *)
Theorem C98_search : forall older l newer text k level rest,
  Forall no_nul (older ++ l :: newer) -> Forall printable text -> length text <= 255 ->
  occurs text l -> hits text newer k ->
  readline (older ++ l :: newer) level (18%N :: text ++ repeat 18%N k ++ 13%N :: rest) = Ok (Line l, rest).
Proof.
  intros older l newer text k level rest LO P L O Hk. set (hist := older ++ l :: newer) in *.
  unfold readline. destruct (init_ok hist level) as (s & -> & H & _ & (F1 & F2 & F3 & F4) & _). cbn [bind].
  assert (W : wf hist s). { unfold wf. rewrite F1, F2, F4. cbn. splits; eauto; try lia. discriminate. }
  destruct (first_r hist s (text ++ repeat 18%N k ++ 13%N :: rest) LO W F3) as (s1 & -> & Q1 & G1).
  destruct (type_text hist LO text [] s1 (repeat 18%N k ++ 13%N :: rest) Q1 G1 P L) as (s2 & -> & Q2 & G2). cbn [app] in Q2, G2.
  assert (C : chain hist text (length hist) k (length older)).
  { replace (length hist) with (length older + 1 + length newer) by (unfold hist; rewrite app_length; cbn; lia).
    apply (chain_ok hist text l older O newer [] k); auto. unfold hist. now rewrite app_nil_r. }
  assert (F : exists s3, edit hist (repeat 18%N k ++ 13%N :: rest) s2 = edit hist (13%N :: rest) s3 /\ stands hist (length older) s3).
  { destruct k; cbn [chain] in C.
    - exists s2. split; auto.
    - destruct C as (i & A & B). destruct (again_r hist text LO k s2 i (length older) (13%N :: rest) Q2 (G2 i A) B) as (s3 & E & _ & St). eauto. }
  destruct F as (s3 & -> & (_ & _ & H3)).
  assert (N3 : nth (length older) hist [] = l) by (unfold hist; rewrite app_nth2, Nat.sub_diag by lia; reflexivity).
  rewrite N3 in H3. rewrite edit_eq. change (13 =? 27)%N with false. cbv iota.
  change (key hist 13 s3) with (do l <- c_string (e_buf s3); Ok (Stop (Line l))). now rewrite (holds_read l s3 H3).
Qed.
Example C98_search_ex : occurs (bs "le") (bs "let x") /\ hits (bs "le") [bs "x+1"; bs "file"; bs "y"] 1.
Proof.
  assert (N0 : forall l, contains (bs "le") l = false -> ~ occurs (bs "le") l).
  { intros l H O. apply contains_iff in O. congruence. }
  split; [exists [], (bs "t x"); reflexivity|].
  apply hits_no; [apply N0; reflexivity|]. apply hits_yes; [exists (bs "fi"), []; reflexivity|].
  apply hits_no; [apply N0; reflexivity|]. constructor.
Qed.

(** Tab inserts the rest of the only name that starts with the word before the cursor, on a line
    that was not taken from the history and stays below 1023 bytes. *)
Theorem C98_tab_partial : forall hist level ks w k ks' rest,
  Forall no_nul hist -> Forall typed ks -> Forall typed ks' -> Forall (fun k => k <> Up /\ k <> Down) ks ->
  let v := presses hist ks (start hist level) in
  word_before (v_text v) (v_cur v) w -> w <> [] -> length w < 255 ->
  only_name (keywords ++ commands) w (w ++ k) -> length (v_text v) + length k < 1023 ->
  readline hist level (flat_map sent ks ++ 9%N :: flat_map sent ks' ++ 13%N :: rest) =
  Ok (Line (v_text (presses hist ks' (View (firstn (v_cur v) (v_text v) ++ k ++ skipn (v_cur v) (v_text v))
                                          (v_cur v + length k) (v_at v) (v_draft v)))), rest).
Proof.
  intros hist level ks w k ks' rest LO T T' NH v W Wn Wl O Fit.
  unfold readline. destruct (rel_init hist level) as (s & -> & R & Sz). cbn [bind].
  destruct (presses_ok hist ks LO (start hist level) s (9%N :: flat_map sent ks' ++ 13%N :: rest) R T) as (s' & -> & R' & Z).
  assert (1024 <= e_size s').
  { etransitivity; [exact Sz|]. apply Z. eapply Forall_impl; [|exact NH]. intros a (A & B) [C|C]; auto. }
  destruct (tab_fits hist v s' w k (flat_map sent ks' ++ 13%N :: rest) R' W Wn Wl O) as (s2 & -> & R2). { lia. }
  destruct (presses_ok hist ks' LO _ s2 (13%N :: rest) R2 T') as (s3 & -> & R3 & _). now apply enter_ok.
Qed.
Example C98_tab_partial_ex :
  let v := presses [] (map Char (bs "1;stru")) (start [] 0) in
  word_before (v_text v) (v_cur v) (bs "stru") /\ only_name (keywords ++ commands) (bs "stru") (bs "stru" ++ bs "ct").
Proof.
  split.
  - exists (bs "1;"). split; [reflexivity|]. split; [change (bs "stru") with [115; 116; 114; 117]%N; repeat (apply Forall_cons; [apply word_char_iff; reflexivity|]); apply Forall_nil|].
    right. exists (bs "1"), 59%N. split; [reflexivity|]. intros Q. apply word_char_iff in Q. discriminate.
  - assert (H : filter (is_prefix (bs "stru")) (keywords ++ commands) = [bs "struct"]) by (vm_compute; reflexivity).
    unfold only_name. splits.
    + assert (I : In (bs "struct") [bs "struct"]) by now left. rewrite <- H in I. apply filter_In in I. apply I.
    + exists (bs "ct"). reflexivity.
    + intros n r I E. assert (J : In n (filter (is_prefix (bs "stru")) (keywords ++ commands))).
      { apply filter_In. split; auto. apply is_prefix_spec. eauto. }
      rewrite H in J. destruct J as [<-|[]]. reflexivity.
Qed.

(** False of Tab on a line taken from the history: it never does anything there. *)
Theorem C98_tab_refuted : forall hist level rest,
  Forall no_nul hist -> hist <> [] ->
  readline hist level (sent Up ++ 9%N :: rest) = readline hist level (sent Up ++ rest).
Proof.
  intros hist level rest LO NE. unfold readline. destruct (init_ok hist level) as (s & -> & H & _ & (F1 & _) & _). cbn [bind sent app].
  rewrite !(edit_eq hist (27%N :: _)). change (27 =? 27)%N with true. cbv iota.
  assert (exists l s', escape hist 91 65 s = Ok s' /\ holds l s' /\ e_size s' = length l + 1) as (l & s' & -> & H' & Sz).
  { unfold escape. change (negb (91 =? 91)%N) with false. change (65 =? 65)%N with true. cbv iota.
    assert (0 < length hist) by (destruct hist; [congruence|cbn; lia]).
    rewrite F1. destruct (Nat.ltb_spec 0 (length hist)); [|lia]. rewrite Nat.eqb_refl, (holds_read _ s H). cbn [bind with_saved e_hidx].
    rewrite F1. destruct (Nat.ltb_spec (length hist - 1) (length hist)); [|lia].
    destruct (nth_error hist (length hist - 1)) as [l|] eqn:E; [|apply nth_error_None in E; lia].
    exists l. eexists. split; [reflexivity|]. split; [|reflexivity]. apply (load_holds l). eapply lines_nth; eauto. }
  cbn [bind]. eapply tab_full; eauto.
Qed.
Example C98_tab_refuted_ex :
  readline [bs "stru"] 0 (map (fun c => c) (bs "stru") ++ [9; 13])%N = Ok (Line (bs "struct"), []) /\
  readline [bs "stru"] 0 (sent Up ++ [9; 13])%N = Ok (Line (bs "stru"), []).
Proof. split; vm_compute; reflexivity. Qed.

(** False of the Delete key: it types a tilde. *)
Theorem C98_delete_refuted : forall hist rest s,
  edit hist ([27; 91; 51; 126]%N ++ rest) s = edit hist (126%N :: rest) s.
Proof. intros. reflexivity. Qed.
Example C98_delete_refuted_ex : readline [] 0 [97; 27; 91; 68; 27; 91; 51; 126; 13]%N = Ok (Line (bs "~a"), []).
Proof. vm_compute. reflexivity. Qed.

(** False of Backspace in a search: it changes the line found, not the text searched for. *)
Theorem C98_search_backspace_refuted :
  let hist := [bs "abc"; bs "xyz"] in
  readline hist 0 (18%N :: bs "a" ++ [13])%N = Ok (Line (bs "abc"), []) /\
  readline hist 0 (18%N :: bs "ax" ++ [127; 13])%N = Ok (Line (bs "ab"), []).
Proof. split; vm_compute; reflexivity. Qed.

(** False of the cursor keys in a search: they do not end it, what is typed after them is searched for
    and not inserted. *)
Theorem C98_search_arrow_refuted :
  readline [bs "abc"] 0 (18%N :: bs "b" ++ sent Left ++ bs "-" ++ [13])%N = Ok (Line (bs "abc"), []).
Proof. vm_compute. reflexivity. Qed.

(** False of letters of more than one byte: Backspace takes one byte only. *)
Theorem C98_utf8_refuted : forall hist c1 c2 rest,
  Forall no_nul hist -> (128 <= c1)%N -> (128 <= c2)%N ->
  readline hist 0 (c1 :: c2 :: 127%N :: 13%N :: rest) = Ok (Line [c1], rest).
Proof.
  intros hist c1 c2 rest LO A B. pose proof (C98_edit hist 0 [Char c1; Char c2; Back] rest LO) as E.
  cbn [flat_map sent app] in E. apply E. repeat constructor; cbn; unfold printable; try lia.
Qed.
Example C98_utf8_refuted_ex : readline [] 0 [195; 169; 127; 13]%N = Ok (Line [195%N], []).
Proof. vm_compute. reflexivity. Qed.

(** False of the end of the input: it is not reported, each call gives a line. *)
Theorem C98_eof_refuted : forall hist level ks,
  Forall no_nul hist -> Forall typed ks ->
  readline hist level (flat_map sent ks) = Ok (Line (v_text (presses hist ks (start hist level))), []) /\
  readline hist 0 [] = Ok (Line [], []).
Proof.
  intros hist level ks LO T. split.
  - unfold readline. destruct (rel_init hist level) as (s & -> & R & _). cbn [bind].
    destruct (presses_ok hist ks LO (start hist level) s [] R T) as (s' & E & (H & _) & _). rewrite app_nil_r in E.
    rewrite E. rewrite edit_eq. now rewrite (holds_read _ s' H).
  - unfold readline. destruct (rel_init hist 0) as (s & -> & (H & _) & _). cbn [bind]. rewrite edit_eq. now rewrite (holds_read _ s H).
Qed.
Example C98_eof_refuted_ex : readline [bs "x"] 0 [] = Ok (Line [], []).
Proof. vm_compute. reflexivity. Qed.

Print Assumptions C98_edit.
Print Assumptions C98_safe.
Print Assumptions C98_control.
Print Assumptions C98_search.
Print Assumptions C98_tab_partial.
Print Assumptions C98_tab_refuted.
Print Assumptions C98_delete_refuted.
Print Assumptions C98_search_backspace_refuted.
Print Assumptions C98_search_arrow_refuted.
Print Assumptions C98_utf8_refuted.
Print Assumptions C98_eof_refuted.
