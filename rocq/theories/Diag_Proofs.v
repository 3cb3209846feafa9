From Verif Require Import Common Io_Model Diag_Model Diag_Spec.
Local Open Scope nat_scope.

Lemma seen_plain a p : plain a -> seen false (a ++ p) = a ++ seen false p.
Proof. induction 1 as [|c a H _ IH]; [reflexivity|]. cbn [app seen]. apply N.eqb_neq in H. now rewrite H, IH. Qed.
Lemma seen_end a : plain a -> seen false a = a.
Proof. intros H. rewrite <- (app_nil_r a) at 1. rewrite seen_plain by exact H. apply app_nil_r. Qed.
Lemma see_reset p : seen false (reset ++ p) = seen false p. Proof. reflexivity. Qed.
Lemma see_red p : seen false (red ++ p) = seen false p. Proof. reflexivity. Qed.
Lemma see_yellow p : seen false (yellow ++ p) = seen false p. Proof. reflexivity. Qed.
Lemma see_blue p : seen false (blue ++ p) = seen false p. Proof. reflexivity. Qed.
Lemma see_cyan p : seen false (cyan ++ p) = seen false p. Proof. reflexivity. Qed.
Lemma see_bold p : seen false (bold ++ p) = seen false p. Proof. reflexivity. Qed.
Lemma plain_spaces n : plain (repeat 32%N n).
Proof. apply Forall_forall. intros c H. apply repeat_spec in H. now subst. Qed.
Lemma plain_app a b : plain a -> plain b -> plain (a ++ b).
Proof. intros. now apply Forall_app. Qed.
Lemma plain_lit s : forallb (fun c => negb (c =? 27)%N) s = true -> plain s.
Proof. intros H. apply Forall_forall. intros c I. rewrite forallb_forall in H. specialize (H c I). now rewrite negb_true_iff, N.eqb_neq in H. Qed.
Lemma plain_dec_digits f n : (0 <= n)%Z -> plain (dec_digits f n).
Proof.
  revert n. induction f as [|f IH]; intros n P; cbn [dec_digits]; [constructor|]. destruct (n <? 10)%Z eqn:E.
  - constructor; [|constructor]. lia.
  - apply plain_app; [apply IH; apply Z.div_pos; lia|]. constructor; [|constructor]. pose proof (Z.mod_pos_bound n 10). lia.
Qed.
Lemma plain_number n : plain (number n).
Proof. unfold number, dec_int. destruct (Z.of_nat n <? 0)%Z eqn:E; [lia|]. apply plain_dec_digits. lia. Qed.

(** ** The place *)
Lemma to_end_ok rest below : ~ In 10%N rest -> (below = [] \/ exists b, below = 10%N :: b) -> to_end (rest ++ below) = rest.
Proof.
  intros N B. induction rest as [|c rest IH]; [destruct B as [->|[b ->]]; reflexivity|]. cbn [app to_end]. destruct (N.eqb_spec c 10); [subst; destruct N; now left|].
  rewrite IH; [reflexivity|]. intros I. apply N. now right.
Qed.
Lemma context_ok src colour t above left rest below : stands src t above left rest below ->
  context src colour t = Ok (blue ++ bs "   |" ++ nl ++ reset ++ blue ++ pad3 (dec (line t)) ++ bs "| " ++ reset ++ left ++ rest ++ nl ++
             blue ++ bs "   | " ++ reset ++ repeat 32%N (length left) ++ colour ++ bs "^ here" ++ reset ++ nl).
Proof.
  intros (-> & _ & _ & Nr & B & St & _ & C). unfold context. rewrite St, C, app_length. replace (S (length left) - 1) with (length left) by lia.
  destruct (Nat.ltb_spec (length above + length left) (length left)); [lia|]. change (S (length left) =? 0) with false. cbn [orb]. do 9 f_equal.
  replace (length above + length left - length left) with (length above) by lia.
  rewrite !skipn_app, skipn_all2, Nat.sub_diag by lia. cbn [skipn app]. rewrite firstn_app, Nat.sub_diag, firstn_all. cbn [firstn]. rewrite app_nil_r.
  rewrite (skipn_all2 above) by lia. replace (length above + length left - length above) with (length left) by lia. rewrite skipn_all, Nat.sub_diag. cbn [skipn app].
  now rewrite to_end_ok.
Qed.
Lemma context_if_ok src colour t after above left rest below x : stands src t above left rest below -> context src colour t = Ok x -> context_if src colour t after = Ok (x ++ after).
Proof. intros (_ & _ & _ & _ & _ & St & _) E. unfold context_if. rewrite St, E. reflexivity. Qed.

(** ** The hints *)
Lemma combined_ok hs : forall cur, cur <> [] -> length cur + total hs < 4096 -> combined hs cur = Ok (cur ++ flat_map (fun h => end_of_line ++ h) hs).
Proof.
  induction hs as [|h hs IH]; intros cur N B; cbn [combined flat_map].
  - now rewrite app_nil_r.
  - cbn [total fold_right] in B. fold (total hs) in B. destruct cur as [|d cur]; [easy|]. cbv zeta iota. revert B. set (k := d :: cur). intros B.
    assert (L : length (k ++ nl) = length k + 1) by (rewrite app_length; reflexivity). rewrite L.
    destruct (Nat.leb_spec 4096 (length k + 1)); [lia|]. rewrite firstn_all2 by lia. rewrite IH.
    + rewrite <- !app_assoc. reflexivity.
    + discriminate.
    + rewrite !app_length. change (length nl) with 1. lia.
Qed.
Lemma combined_first h hs : h <> [] -> total (h :: hs) < 4096 -> combined (h :: hs) [] = Ok (h ++ flat_map (fun h => end_of_line ++ h) hs).
Proof.
  intros Ne B. cbn [total fold_right] in B. fold (total hs) in B. cbn [combined]. cbv zeta. change (4096 <=? length (@nil BinNums.N)) with false. cbv iota.
  rewrite firstn_all2 by (change (length (@nil BinNums.N)) with 0; lia). cbn [app]. apply combined_ok; [exact Ne|lia].
Qed.
Lemma joined_flat h hs : joined (h :: hs) = h ++ flat_map (fun h => end_of_line ++ h) hs.
Proof.
  revert h. induction hs as [|k hs IH]; intros h; [symmetry; apply app_nil_r|].
  change (joined (h :: k :: hs)) with (h ++ end_of_line ++ joined (k :: hs)). rewrite IH. cbn [flat_map]. now rewrite <- !app_assoc.
Qed.
Lemma combined_help_ok hs : forall cur, length cur + total hs < 2048 -> combined_help hs cur = cur ++ flat_map (fun h => end_of_line ++ bs "Help: " ++ h) hs.
Proof.
  induction hs as [|h hs IH]; intros cur B; cbn [combined_help flat_map]; [now rewrite app_nil_r|].
  cbn [total fold_right] in B. fold (total hs) in B. cbv zeta.
  rewrite (firstn_all2 (nl ++ bs "Help: ")) by (change (length (nl ++ bs "Help: ")) with 7; lia).
  assert (L : length (cur ++ nl ++ bs "Help: ") = length cur + 7) by (rewrite app_length; reflexivity). rewrite L.
  rewrite firstn_all2 by lia. rewrite IH by (rewrite app_length, L; lia).
  rewrite <- !app_assoc. reflexivity.
Qed.
Lemma flat_length (f : bytes -> bytes) k hs : (forall h : bytes, length (f h) <= length h + k) -> k <= 7 -> length (flat_map f hs) <= total hs.
Proof.
  intros F K. induction hs as [|h hs IH]; [cbn; lia|]. cbn [flat_map total fold_right]. fold (total hs). rewrite app_length. pose proof (F h). lia.
Qed.
Lemma append_ok a b : length a + length b < 2 * 4096 -> append a b = a ++ b.
Proof. intros B. unfold append. destruct (Nat.ltb_spec (length a) (2 * 4096)); [|lia]. now rewrite firstn_all2 by lia. Qed.
Lemma cut_ok n s : length s < n -> cut n s = s.
Proof. intros H. apply firstn_all2. lia. Qed.

(** ** What is seen *)
Ltac see := repeat first
  [ rewrite see_reset | rewrite see_red | rewrite see_yellow | rewrite see_blue | rewrite see_cyan | rewrite see_bold
  | rewrite seen_plain by (first [assumption | apply plain_number | apply plain_spaces | (apply plain_lit; reflexivity)]) ].
Lemma see_help word h p : plain word -> plain h -> seen false (help word h ++ p) = bs "   |" ++ end_of_line ++ bs "   = " ++ word ++ bs ": " ++ h ++ end_of_line ++ seen false p.
Proof. intros W H. unfold help. rewrite <- !app_assoc. see. reflexivity. Qed.
Lemma see_bar p : seen false (bar ++ p) = bs "   |" ++ end_of_line ++ seen false p.
Proof. reflexivity. Qed.
Lemma see_helps word hs p : plain word -> Forall plain hs -> seen false (flat_map (help word) hs ++ p) =
  flat_map (fun h => bs "   |" ++ end_of_line ++ bs "   = " ++ word ++ bs ": " ++ h ++ end_of_line) hs ++ seen false p.
Proof.
  intros W F. induction F as [|h hs H _ IH]; [reflexivity|]. cbn [flat_map]. rewrite <- app_assoc, see_help, IH by assumption. rewrite <- !app_assoc. reflexivity.
Qed.
Lemma see_report file colour word m t left rest after : (forall p, seen false (colour ++ p) = seen false p) -> plain word -> plain m -> plain file -> plain left -> plain rest ->
  seen false (header file colour word m t ++ (blue ++ bs "   |" ++ nl ++ reset ++ blue ++ pad3 (dec (line t)) ++ bs "| " ++ reset ++ left ++ rest ++ nl ++
             blue ++ bs "   | " ++ reset ++ repeat 32%N (length left) ++ colour ++ bs "^ here" ++ reset ++ nl) ++ after) =
  word ++ m ++ end_of_line ++ bs "  --> " ++ file ++ bs ":" ++ number (line t) ++ bs ":" ++ number (col t) ++ end_of_line ++ bs "   |" ++ end_of_line ++
  number (line t) ++ spaces (3 - length (number (line t))) ++ bs "| " ++ left ++ rest ++ end_of_line ++ bs "   | " ++ spaces (length left) ++ bs "^ here" ++ end_of_line ++ seen false after.
Proof.
  intros C W M F L R. unfold header, pad3. change dec with number. rewrite <- !app_assoc. rewrite C. do 9 see. rewrite C. see. reflexivity.
Qed.

(** ** The colours *)
Lemma ink_app s a b : ink s (a ++ b) = ink s a ++ ink s b. Proof. apply map_app. Qed.
Lemma paint_plain s a p : plain a -> paint None s (a ++ p) = ink s a ++ paint None s p.
Proof. induction 1 as [|c a H _ IH]; [reflexivity|]. cbn [app paint ink map]. apply N.eqb_neq in H. rewrite H, IH. reflexivity. Qed.
Lemma paint_reset s p : paint None s (reset ++ p) = paint None [] p. Proof. reflexivity. Qed.
Lemma paint_red s p : paint None s (red ++ p) = paint None (s ++ [bs "[1;31"]) p. Proof. reflexivity. Qed.
Lemma paint_yellow s p : paint None s (yellow ++ p) = paint None (s ++ [bs "[1;33"]) p. Proof. reflexivity. Qed.
Lemma paint_blue s p : paint None s (blue ++ p) = paint None (s ++ [bs "[1;34"]) p. Proof. reflexivity. Qed.
Lemma paint_cyan s p : paint None s (cyan ++ p) = paint None (s ++ [bs "[1;36"]) p. Proof. reflexivity. Qed.
Lemma paint_bold s p : paint None s (bold ++ p) = paint None (s ++ [bs "[1"]) p. Proof. reflexivity. Qed.
Ltac brush := repeat first
  [ rewrite paint_reset | rewrite paint_red | rewrite paint_yellow | rewrite paint_blue | rewrite paint_cyan | rewrite paint_bold
  | rewrite paint_plain by (first [assumption | apply plain_number | apply plain_spaces | (apply plain_lit; reflexivity)]) ].
Definition hint_ink (word h : bytes) := ink [bs "[1;34"] (bs "   |" ++ end_of_line) ++ ink [bs "[1;36"] (bs "   = " ++ word ++ bs ": ") ++ ink [] (h ++ end_of_line).
Lemma paint_help word h p : plain word -> plain h -> paint None [] (help word h ++ p) = hint_ink word h ++ paint None [] p.
Proof. intros W H. unfold help, hint_ink. rewrite !ink_app, <- !app_assoc. brush. reflexivity. Qed.
Lemma paint_bar p : paint None [] (bar ++ p) = ink [bs "[1;34"] (bs "   |" ++ end_of_line) ++ paint None [] p.
Proof. reflexivity. Qed.
Lemma paint_helps word hs p : plain word -> Forall plain hs -> paint None [] (flat_map (help word) hs ++ p) = flat_map (hint_ink word) hs ++ paint None [] p.
Proof. intros W F. induction F as [|h hs H _ IH]; [reflexivity|]. cbn [flat_map]. rewrite <- app_assoc, paint_help, IH by assumption. now rewrite <- !app_assoc. Qed.
Lemma paint_report file colour hue word m t left rest after : (forall p, paint None [] (colour ++ p) = paint None hue p) -> plain word -> plain m -> plain file -> plain left -> plain rest ->
  paint None [] (header file colour word m t ++ (blue ++ bs "   |" ++ nl ++ reset ++ blue ++ pad3 (dec (line t)) ++ bs "| " ++ reset ++ left ++ rest ++ nl ++
             blue ++ bs "   | " ++ reset ++ repeat 32%N (length left) ++ colour ++ bs "^ here" ++ reset ++ nl) ++ after) =
  ink hue word ++ ink [bs "[1"] m ++ ink [] end_of_line ++
  ink [bs "[1;34"] (bs "  --> ") ++ ink [] (file ++ bs ":" ++ number (line t) ++ bs ":" ++ number (col t) ++ end_of_line) ++
  ink [bs "[1;34"] (bs "   |" ++ end_of_line) ++
  ink [bs "[1;34"] (number (line t) ++ spaces (3 - length (number (line t))) ++ bs "| ") ++ ink [] (left ++ rest ++ end_of_line) ++
  ink [bs "[1;34"] (bs "   | ") ++ ink [] (spaces (length left)) ++ ink hue (bs "^ here") ++ ink [] end_of_line ++ paint None [] after.
Proof.
  intros C W M F L R. unfold header, pad3. change dec with number. rewrite !ink_app, <- !app_assoc. rewrite C. do 9 brush. rewrite C. brush. reflexivity.
Qed.

(** ** One report *)
Definition hears (c : config) (r : report) : bool := negb (is_warning r) && callback c && (tolerant c || negb (is_panic r)).
Definition ends (c : config) (r : report) : bool := is_panic r && negb (tolerant c && callback c).
Definition after (c : config) (r : report) (o : out) (m : bytes) (s : st) : st :=
  St (err s ++ [o]) (told s ++ (if hears c r then [(token_of r, m)] else [])) (warnings s + (if is_warning r && negb (json c) then 1 else 0)) (stopped s || ends c r).
Lemma give_up_ok c r o m s : is_warning r = false -> is_panic r = true -> give_up c (token_of r) m (say o s) = after c r o m s.
Proof.
  intros W P. unfold give_up, after, hears, ends. rewrite W, P. destruct s as [e h w b]. unfold say, tell, stop. cbn [err told warnings stopped negb andb].
  rewrite Nat.add_0_r, orb_false_r. destruct (tolerant c), (callback c); cbn [andb negb]; rewrite ?app_nil_r, ?orb_false_r, ?orb_true_r; reflexivity.
Qed.
Lemma go_on_ok c r o m s : is_warning r = false -> is_panic r = false -> go_on c (token_of r) m (say o s) = after c r o m s.
Proof.
  intros W P. unfold go_on, after, hears, ends. rewrite W, P. destruct s as [e h w b]. unfold say, tell. cbn [err told warnings stopped negb andb].
  rewrite Nat.add_0_r, orb_true_r, orb_false_r. destruct (callback c); cbn [andb]; rewrite ?app_nil_r; reflexivity.
Qed.
Lemma warn_ok c r o m s : is_warning r = true -> is_panic r = false -> (if json c then say o s else say o (count s)) = after c r o m s.
Proof.
  intros W P. unfold after, hears, ends. rewrite W, P. destruct s as [e h w b]. unfold say, count. cbn [err told warnings stopped negb andb].
  rewrite app_nil_r, orb_false_r. destruct (json c); cbn [negb]; rewrite ?Nat.add_0_r, ?Nat.add_1_r; reflexivity.
Qed.
Lemma stands_plain src t above left rest below : stands src t above left rest below -> plain src -> plain left /\ plain rest.
Proof. intros (-> & _) P. unfold plain in *. rewrite !Forall_app in P. tauto. Qed.
Definition allowed (c : config) (r : report) : Prop :=
  match r with Warn _ _ | WarnSuggest _ _ _ => quiet c = false | ErrorSuggest _ _ _ => callback c = true \/ json c = true | _ => True end.

Lemma step_text file src c r s above left rest below : json c = false -> allowed c r -> stands src (token_of r) above left rest below -> fits file src r ->
  exists x, step file src c r s = Ok (after c r (Text x) (editor_text r) s) /\ visible x = shown file r left rest /\ paint None [] x = coloured file r left rest.
Proof.
  intros J A S (Pf & Ps & Pm & Ph & Nh & Tot & Len). destruct (stands_plain _ _ _ _ _ _ S Ps) as [Pl Pr].
  assert (W1 : plain (bs "warning: ")) by (apply plain_lit; reflexivity). assert (W2 : plain (bs "error: ")) by (apply plain_lit; reflexivity).
  assert (W3 : plain (bs "note")) by (apply plain_lit; reflexivity). assert (W4 : plain (bs "help")) by (apply plain_lit; reflexivity).
  unfold visible, shown, coloured, hue.
  destruct r as [t m|t m g|t m|t m g|t m hs|t m|t m g|t m hs]; cbn [token_of message_of is_warning is_panic hints_of allowed editor_text step bars level advice] in *.
  - unfold warn_at. rewrite A, J. erewrite context_if_ok; [|exact S|eapply context_ok; exact S]. cbn [bind].
    eexists. split; [rewrite <- (warn_ok c (Warn t m) _ m s eq_refl eq_refl), J; reflexivity|].
    split. { rewrite see_report; [|solve [auto using see_yellow] ..]. reflexivity. }
    erewrite paint_report; [|solve [auto | intros; apply paint_yellow] ..]. reflexivity.
  - unfold warn_suggest. rewrite A, J. erewrite context_if_ok; [|exact S|eapply context_ok; exact S]. cbn [bind].
    eexists. split; [rewrite <- (warn_ok c (WarnSuggest t m g) _ m s eq_refl eq_refl), J; reflexivity|].
    split.
    + rewrite see_report; [|solve [auto using see_yellow] ..]. destruct g as [h|]; cbn [help_if flat_map hint_text advice is_warning]; [|reflexivity].
      apply Forall_inv in Ph. rewrite <- (app_nil_r (help _ _)), see_help by assumption. rewrite (app_nil_r (hint_text _ _)). reflexivity.
    + erewrite paint_report; [|solve [auto | intros; apply paint_yellow] ..]. destruct g as [h|]; cbn [help_if flat_map advice is_warning]; [|reflexivity].
      apply Forall_inv in Ph. rewrite <- (app_nil_r (help _ _)), paint_help by assumption. unfold hint_ink. rewrite <- !app_assoc. reflexivity.
  - unfold panic_at. rewrite J. erewrite context_ok; [|exact S]. cbn [bind]. rewrite cut_ok by exact Len.
    eexists. split; [apply f_equal, (give_up_ok c (Panics t m)); reflexivity|]. split. { rewrite see_report; [|solve [auto using see_red] ..]. reflexivity. }
    erewrite paint_report; [|solve [auto | intros; apply paint_red] ..]. reflexivity.
  - unfold panic_suggest. rewrite J. erewrite context_ok; [|exact S]. cbn [bind]. unfold suggested. rewrite cut_ok by exact Len.
    eexists. split; [apply f_equal, (give_up_ok c (PanicSuggest t m g)); reflexivity|]. split.
    + rewrite see_report; [|solve [auto using see_red] ..]. destruct g as [h|]; cbn [help_if flat_map hint_text advice is_warning]; [|reflexivity].
      apply Forall_inv in Ph. rewrite <- (app_nil_r (help _ _)), see_help by assumption. rewrite (app_nil_r (hint_text _ _)). reflexivity.
    + erewrite paint_report; [|solve [auto | intros; apply paint_red] ..]. destruct g as [h|]; cbn [help_if flat_map advice is_warning]; [|reflexivity].
      apply Forall_inv in Ph. rewrite <- (app_nil_r (help _ _)), paint_help by assumption. unfold hint_ink. rewrite <- !app_assoc. reflexivity.
  - unfold panic_hints. rewrite J. erewrite context_ok; [|exact S]. cbn [bind].
    eexists. split.
    + rewrite combined_help_ok by (cbn [length]; lia). cbn [app]. rewrite append_ok; [apply f_equal, (give_up_ok c (PanicHints t m hs)); reflexivity|].
      assert (Q : length (flat_map (fun h => end_of_line ++ bs "Help: " ++ h) hs) <= total hs).
      { apply (flat_length _ 7); [|lia]. intros h. rewrite !app_length. change (length end_of_line) with 1. change (length (bs "Help: ")) with 6. lia. }
      unfold bytes in *. lia.
    + split. { rewrite see_report; [|solve [auto using see_red] ..]. rewrite <- (app_nil_r (flat_map (help _) _)), see_helps by assumption. cbn [seen]. rewrite app_nil_r. reflexivity. }
      erewrite paint_report; [|solve [auto | intros; apply paint_red] ..]. rewrite <- (app_nil_r (flat_map (help _) _)), paint_helps by assumption. cbn [paint]. reflexivity.
  - unfold error_at. rewrite J. erewrite context_if_ok; [|exact S|eapply context_ok; exact S]. cbn [bind]. rewrite cut_ok by exact Len.
    eexists. split; [apply f_equal, (go_on_ok c (Error t m)); reflexivity|]. split. { rewrite see_report; [|solve [auto using see_red] ..]. reflexivity. }
    erewrite paint_report; [|solve [auto | intros; apply paint_red] ..]. reflexivity.
  - destruct A as [A|A]; [|congruence]. unfold error_suggest. rewrite J, A. erewrite context_if_ok; [|exact S|eapply context_ok; exact S]. cbn [bind]. unfold suggested. rewrite cut_ok by exact Len.
    eexists. split; [rewrite <- (go_on_ok c (ErrorSuggest t m g)) by reflexivity; unfold go_on; rewrite A; reflexivity|]. split.
    + rewrite see_report; [|solve [auto using see_red] ..]. destruct g as [h|]; cbn [help_if flat_map hint_text advice is_warning]; [|reflexivity].
      apply Forall_inv in Ph. rewrite <- (app_nil_r (help _ _)), see_help by assumption. rewrite (app_nil_r (hint_text _ _)). reflexivity.
    + erewrite paint_report; [|solve [auto | intros; apply paint_red] ..]. destruct g as [h|]; cbn [help_if flat_map advice is_warning]; [|reflexivity].
      apply Forall_inv in Ph. rewrite <- (app_nil_r (help _ _)), paint_help by assumption. unfold hint_ink. rewrite <- !app_assoc. reflexivity.
  - destruct Len as [Ne Len]. unfold error_hints. destruct hs as [|h hs]; [easy|]. apply Forall_inv in Nh.
    rewrite combined_first; [|assumption|eapply Nat.lt_trans; [exact Tot|lia]]. cbn [bind]. rewrite J. erewrite context_if_ok; [|exact S|eapply context_ok; exact S]. cbn [bind].
    eexists. split.
    + destruct (Nat.ltb_spec (length m) (2 * 4096)); [|lia]. rewrite (firstn_all2 nl) by (change (length nl) with 1; lia).
      rewrite append_ok.
      * replace ((m ++ nl) ++ h ++ flat_map (fun h => end_of_line ++ h) hs) with (m ++ flat_map (fun h => end_of_line ++ h) (h :: hs)) by (cbn [flat_map]; rewrite <- !app_assoc; reflexivity).
        apply f_equal, (go_on_ok c (ErrorHints t m (h :: hs))); reflexivity.
      * assert (Q : length (flat_map (fun h => end_of_line ++ h) hs) <= total hs).
        { apply (flat_length _ 7); [|lia]. intros h'. rewrite !app_length. change (length end_of_line) with 1. lia. }
        cbn [total fold_right] in Tot. fold (total hs) in Tot. rewrite !app_length. change (length nl) with 1. lia.
    + split. { rewrite see_report; [|solve [auto using see_red] ..]. rewrite <- (app_nil_r (flat_map (help _) _)), see_helps by assumption. cbn [seen]. rewrite app_nil_r. reflexivity. }
      erewrite paint_report; [|solve [auto | intros; apply paint_red] ..]. rewrite <- (app_nil_r (flat_map (help _) _)), paint_helps by assumption. cbn [paint]. reflexivity.
Qed.

(** ** As an object *)
Definition brief (r : report) : Prop :=
  length (message_of r) < 1024 /\ Forall (fun h => h <> []) (hints_of r) /\ total (hints_of r) < 4096.
Lemma step_json file src c r s : json c = true -> allowed c r -> brief r ->
  exists m, step file src c r s = Ok (after c r (Obj file (line (token_of r)) (col (token_of r)) (level r) (message_of r) (advice_of r)) m s).
Proof.
  intros J A (Len & Nh & Tot).
  destruct r as [t m|t m g|t m|t m g|t m hs|t m|t m g|t m hs]; cbn [token_of message_of hints_of allowed step] in *.
  - exists m. unfold warn_at. rewrite A, J, cut_ok by exact Len. rewrite <- (warn_ok c (Warn t m) _ m s eq_refl eq_refl), J. reflexivity.
  - exists m. unfold warn_suggest. rewrite A, J. rewrite <- (warn_ok c (WarnSuggest t m g) _ m s eq_refl eq_refl), J. destruct g; reflexivity.
  - exists m. unfold panic_at. rewrite J, cut_ok by exact Len. apply f_equal, (give_up_ok c (Panics t m)); reflexivity.
  - eexists. unfold panic_suggest. rewrite J. rewrite <- (give_up_ok c (PanicSuggest t m g)) by reflexivity. destruct g; reflexivity.
  - unfold panic_hints. rewrite J. destruct hs as [|h hs].
    + eexists. cbn [combined bind]. rewrite <- (give_up_ok c (PanicHints t m [])) by reflexivity. reflexivity.
    + apply Forall_inv in Nh. rewrite combined_first by assumption. cbn [bind]. rewrite <- joined_flat. eexists.
      rewrite <- (give_up_ok c (PanicHints t m (h :: hs))) by reflexivity. unfold emit, advice_of, level. cbn [hints_of is_warning].
      replace (opt (joined (h :: hs))) with (Some (joined (h :: hs))); [reflexivity|]. rewrite joined_flat. now destruct h.
  - exists m. unfold error_at. rewrite J, cut_ok by exact Len. apply f_equal, (go_on_ok c (Error t m)); reflexivity.
  - eexists. unfold error_suggest. rewrite J. rewrite <- (go_on_ok c (ErrorSuggest t m g)) by reflexivity. destruct g; reflexivity.
  - unfold error_hints. destruct hs as [|h hs].
    + eexists. cbn [combined bind]. rewrite J. rewrite <- (go_on_ok c (ErrorHints t m [])) by reflexivity. reflexivity.
    + apply Forall_inv in Nh. rewrite combined_first by assumption. cbn [bind]. rewrite J, <- joined_flat. eexists.
      rewrite <- (go_on_ok c (ErrorHints t m (h :: hs))) by reflexivity. unfold emit, advice_of, level. cbn [hints_of is_warning].
      replace (opt (joined (h :: hs))) with (Some (joined (h :: hs))); [reflexivity|]. rewrite joined_flat. now destruct h.
Qed.

(** ** Histories *)
Fixpoint reach (c : config) (l : list report) : list report := match l with [] => [] | r :: l => r :: if ends c r then [] else reach c l end.
Lemma run_text file src c l : json c = false -> Forall (fun r => allowed c r /\ placed src r /\ fits file src r) l -> forall s, stopped s = false ->
  exists s' os, run file src c l s = Ok s' /\ err s' = err s ++ os /\ Forall2 (shows file src) os (reach c l) /\
    told s' = told s ++ map (fun r => (token_of r, editor_text r)) (filter (hears c) (reach c l)) /\
    warnings s' = warnings s + length (filter is_warning (reach c l)) /\ stopped s' = existsb (ends c) l.
Proof.
  intros J F. induction F as [|r l (A & (above & left & rest & below & Pl) & Fi) _ IH]; intros s Sp.
  - exists s, []. cbn. rewrite !app_nil_r, Nat.add_0_r. splits; auto.
  - cbn [run]. rewrite Sp. destruct (step_text file src c r s above left rest below J A Pl Fi) as (x & E & V). rewrite E. cbn [bind].
    set (s1 := after c r (Text x) (editor_text r) s).
    assert (Sh : shows file src (Text x) r) by (exists x, above, left, rest, below; auto).
    destruct (ends c r) eqn:En.
    + exists s1, [Text x]. assert (St1 : stopped s1 = true) by (unfold s1, after; cbn [stopped]; rewrite En; apply orb_true_r).
      cbn [reach existsb]. rewrite En. splits.
      * destruct l; cbn [run]; [reflexivity|]. now rewrite St1.
      * reflexivity.
      * constructor; [exact Sh|constructor].
      * unfold s1, after. cbn [told filter]. now destruct (hears c r).
      * unfold s1, after. cbn [warnings filter]. rewrite J. now destruct (is_warning r).
      * exact St1.
    + destruct (IH s1) as (s' & os & R & Er & Fo & To & Wa & St1); [unfold s1, after; cbn [stopped]; now rewrite En, Sp|].
      exists s', (Text x :: os). cbn [reach existsb]. rewrite En. splits.
      * exact R.
      * rewrite Er. unfold s1, after. cbn [err]. now rewrite <- app_assoc.
      * now constructor.
      * rewrite To. unfold s1, after. cbn [told filter]. rewrite <- app_assoc. now destruct (hears c r).
      * rewrite Wa. unfold s1, after. cbn [warnings filter]. rewrite J. destruct (is_warning r); cbn [negb andb length]; lia.
      * exact St1.
Qed.
Lemma reach_compiler c l : callback c = false -> reach c l = reached l /\ existsb (ends c) l = existsb is_panic l /\ filter (hears c) (reach c l) = [].
Proof.
  intros C. assert (E : forall r, ends c r = is_panic r) by (intros r; unfold ends; rewrite C, andb_false_r; apply andb_true_r).
  assert (H : forall r, hears c r = false) by (intros r; unfold hears; rewrite C, andb_false_r; reflexivity).
  splits.
  - induction l as [|r l IH]; [reflexivity|]. cbn [reach reached]. rewrite E. destruct (is_panic r); [reflexivity|]. now rewrite IH.
  - induction l as [|r l IH]; [reflexivity|]. cbn [existsb]. now rewrite E, IH.
  - induction (reach c l) as [|r k IH]; [reflexivity|]. cbn [filter]. now rewrite H.
Qed.
Lemma reach_editor c l : callback c = true -> tolerant c = true -> reach c l = l /\ existsb (ends c) l = false /\ filter (hears c) l = filter (fun r => negb (is_warning r)) l.
Proof.
  intros C T. assert (E : forall r, ends c r = false) by (intros r; unfold ends; rewrite C, T; apply andb_false_r).
  assert (H : forall r, hears c r = negb (is_warning r)) by (intros r; unfold hears; rewrite C, T, !andb_true_r; reflexivity).
  splits.
  - induction l as [|r l IH]; [reflexivity|]. cbn [reach]. now rewrite E, IH.
  - induction l as [|r l IH]; [reflexivity|]. cbn [existsb]. now rewrite E, IH.
  - apply filter_ext. exact H.
Qed.
(** ** The width of the number of the line *)
Lemma number_short n : n < 1000 -> length (number n) <= 3.
Proof.
  intros H. unfold number, dec_int, dec_nat. destruct (Z.ltb_spec (Z.of_nat n) 0); [lia|]. cbn [dec_digits].
  destruct (Z.ltb_spec (Z.of_nat n) 10); [cbn; lia|]. rewrite app_length. destruct (Z.ltb_spec (Z.of_nat n / 10) 10); [cbn; lia|].
  rewrite app_length. destruct (Z.ltb_spec (Z.of_nat n / 10 / 10) 10); [cbn; lia|]. rewrite Z.div_div in * by lia. exfalso. assert (Z.of_nat n / (10 * 10) < 10)%Z by (apply Z.div_lt_upper_bound; lia). lia.
Qed.
Lemma number_long n : 1000 <= n -> 3 < length (number n).
Proof.
  intros H. unfold number, dec_int, dec_nat. destruct (Z.ltb_spec (Z.of_nat n) 0); [lia|]. cbn [dec_digits].
  assert (H1 : (10 <= Z.of_nat n / 10)%Z) by (apply Z.div_le_lower_bound; lia). assert (H2 : (10 <= Z.of_nat n / 10 / 10)%Z) by (rewrite Z.div_div by lia; apply Z.div_le_lower_bound; lia).
  destruct (Z.ltb_spec (Z.of_nat n) 10); [lia|]. destruct (Z.ltb_spec (Z.of_nat n / 10) 10); [lia|]. destruct (Z.ltb_spec (Z.of_nat n / 10 / 10) 10); [lia|].
  rewrite !app_length. destruct (Z.ltb_spec (Z.of_nat n / 10 / 10 / 10) 10); cbn [length]; [lia|]. rewrite !app_length. cbn [length]. lia.
Qed.
