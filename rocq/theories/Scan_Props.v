(** C114: readln(x, ...) and ? "prompt" (x, ...) read values into variables. *)
From Verif Require Import Common String_Model Readln_Model Readln_Props Scan_Model Scan_Spec Scan_Proofs.
Local Open Scope Z_scope.

Section Props.
Variable F : Type.
Variable strtod : bytes -> option (F * bytes).

Lemma scan_line f (vars : list (var F)) inp line rest : (length vars <= 16)%nat -> next_line inp line rest -> ~ In 0%N line ->
  scan strtod f vars inp = do '(vs, n) <- sscanf strtod (fmt_of f (map info vars)) O line vars 0; Ok (vs, n, rest).
Proof.
  intros L NL Z. unfold scan. destruct (Nat.ltb_spec 16 (length vars)); [lia|]. rewrite make_ok by (rewrite map_length; cbn [length]; lia).
  cbn [bind app]. destruct C24_readln as (_ & R & _). destruct (R inp line rest NL) as (tl & ->). cbn [bind].
  rewrite cread_text by auto. reflexivity.
Qed.
Notation good f vars := (Forall (fun v : var F => v_known v = true /\ (f = Prompt \/ v_kind v <> KString)) vars).

(** One line of input with a value for each variable, with any white space around them: every
    variable has the value typed for it, the call gives the number of variables, and the input
    goes on behind the line, whatever followed the values on it. *)
Theorem C114_scan_partial : forall f vars ws xs tail line inp rest, fit f vars ->
  Forall2 (fun v '(w, x) => typed strtod (v_kind v) w x) vars (combine ws xs) -> length ws = length xs ->
  spread tail ws line -> next_line inp line rest -> ~ In 0%N line ->
  scan strtod f vars inp = Ok (given vars xs, Z.of_nat (length vars), rest).
Proof.
  intros f vars ws xs tail line inp rest [L G] T E Sp NL Z. rewrite (scan_line f vars inp line rest) by (auto; lia).
  assert (A : all3 F strtod vars ws xs).
  { clear - T E. revert vars xs T E. induction ws as [|w ws IH]; intros vars [|x xs] T E; try discriminate; inversion T; subst; constructor; auto. }
  pose proof (run_typed F strtod f tail [] ltac:(constructor) vars ws xs A G true line 0 Sp) as R.
  rewrite !app_nil_r in R. cbn [left_fmt] in R. rewrite R. destruct vars as [|v vars]; [cbn in L; lia|]. cbn [map left_fmt pad flat_map]. cbn [sscanf bind].
  now rewrite app_nil_r, Z.add_0_l.
Qed.

(** A line with values for the first variables only: these are read, the others keep their values
    and the call gives the number read; but -1 if there is none at all. *)
Theorem C114_short_partial : forall f vars more ws xs tail line inp rest, fit f (vars ++ more) -> more <> [] ->
  Forall2 (fun v '(w, x) => typed strtod (v_kind v) w x) vars (combine ws xs) -> length ws = length xs ->
  spread tail ws line -> Forall white tail -> next_line inp line rest -> ~ In 0%N line ->
  scan strtod f (vars ++ more) inp =
    Ok (given vars xs ++ more, match vars with [] => -1 | _ => Z.of_nat (length vars) end, rest).
Proof.
  intros f vars more ws xs tail line inp rest [L G] N T E Sp W NL Z. rewrite (scan_line f (vars ++ more) inp line rest) by (auto; lia).
  assert (A : all3 F strtod vars ws xs).
  { clear - T E. revert vars xs T E. induction ws as [|w ws IH]; intros vars [|x xs] T E; try discriminate; inversion T; subst; constructor; auto. }
  apply Forall_app in G as [G1 G2].
  pose proof (run_typed F strtod f tail more G2 vars ws xs A G1 true line 0 Sp) as R. cbn [left_fmt] in R. rewrite R.
  destruct more as [|m more]; [contradiction|]. cbn [map]. rewrite left_spec.
  assert (C : conv_of F strtod f (info m) tail = End F).
  { rewrite <- conv_skip, skip_all by auto. destruct (info m) as [[]|]; reflexivity. }
  rewrite C. cbn [bind]. rewrite Z.add_0_l. destruct vars; reflexivity.
Qed.

(** Something else where a number should be: reading stops there. *)
Theorem C114_stop_partial : forall f vars m more ws xs sp c junk line inp rest, fit f (vars ++ m :: more) ->
  In (v_kind m) [KInt; KI32; KU32; KUint; KRune] ->
  Forall2 (fun v '(w, x) => typed strtod (v_kind v) w x) vars (combine ws xs) -> length ws = length xs ->
  Forall white sp -> ~ white c -> ~ In c (bs "+-0123456789") -> spread (sp ++ c :: junk) ws line -> next_line inp line rest -> ~ In 0%N line ->
  scan strtod f (vars ++ m :: more) inp = Ok (given vars xs ++ m :: more, Z.of_nat (length vars), rest).
Proof.
  intros f vars m more ws xs sp c junk line inp rest [L G] Km T E W Nc Nd Sp NL Z. rewrite (scan_line f (vars ++ m :: more) inp line rest) by (auto; lia).
  assert (A : all3 F strtod vars ws xs).
  { clear - T E. revert vars xs T E. induction ws as [|w ws IH]; intros vars [|x xs] T E; try discriminate; inversion T; subst; constructor; auto. }
  apply Forall_app in G as [G1 G2].
  pose proof (run_typed F strtod f (sp ++ c :: junk) (m :: more) G2 vars ws xs A G1 true line 0 Sp) as R. cbn [left_fmt] in R. rewrite R.
  cbn [map]. rewrite left_spec.
  assert (C : conv_of F strtod f (info m) (sp ++ c :: junk) = NoMatch F).
  { inversion G2 as [|? ? [Kk _] _]; subst. unfold info. rewrite Kk.
    assert (I : conv_int F (sp ++ c :: junk) = NoMatch F).
    { unfold conv_int. rewrite skip_white, skip_stop by auto. unfold take_int.
      change (bs "+-0123456789") with [43;45;48;49;50;51;52;53;54;55;56;57]%N in Nd. cbn [In] in Nd.
      destruct (N.eqb_spec c 45); [lia|]. destruct (N.eqb_spec c 43); [lia|]. cbv iota beta.
      unfold is_dig. destruct (N.leb_spec 48 c), (N.leb_spec c 57); cbn [andb]; auto; lia. }
    cbn [In] in Km. destruct Km as [<-|[<-|[<-|[<-|[<-|[]]]]]]; exact I. }
  rewrite C. cbn [bind]. now rewrite Z.add_0_l.
Qed.

(** At the end of the input nothing is read and the call gives 0. *)
Theorem C114_end : forall f vars, (length vars <= 16)%nat -> scan strtod f vars [] = Ok (vars, 0, []).
Proof.
  intros f vars L. unfold scan. destruct (Nat.ltb_spec 16 (length vars)); [lia|]. rewrite make_ok by (rewrite map_length; cbn [length]; lia). reflexivity.
Qed.

(** False for more than 16 variables: the array of arguments of the parser overflows. *)
Theorem C114_many_refuted : forall f vars inp, (16 < length vars)%nat -> scan strtod f vars inp = UB.
Proof. intros f vars inp L. unfold scan. destruct (Nat.ltb_spec 16 (length vars)); [reflexivity|lia]. Qed.

(** False for the other types of integers and bool, whatever number is typed: an int is stored in
    an object of another type. *)
Theorem C114_size_refuted : forall f v k w z tail line inp rest, v_kind v = k -> v_known v = true ->
  In k [KBool; KI16; KU16; KI64; KU64; KUsize; KIsize; KI128; KU128] ->
  decimal w z -> spread tail [w] line -> ended tail -> next_line inp line rest -> ~ In 0%N line ->
  scan strtod f [v] inp = UB.
Proof.
  intros f v k w z tail line inp rest <- Kn Ik D Sp Et NL Z. rewrite (scan_line f [v] inp line rest) by (auto; cbn; lia).
  inversion Sp as [|sp w' ws' l W Sl E]; subst. inversion Sl; subst. cbn [map fmt_of]. rewrite sscanf_spec.
  unfold info. rewrite Kn.
  assert (C : conv_of F strtod f (Some (v_kind v)) (sp ++ w ++ l) = conv_int F (sp ++ w ++ l)).
  { cbn [In] in Ik. destruct Ik as [<-|[<-|[<-|[<-|[<-|[<-|[<-|[<-|[<-|[]]]]]]]]]]; reflexivity. }
  rewrite C. unfold conv_int. rewrite skip_white, skip_word by (eauto using decimal_word).
  pose proof (take_decimal w z l D E) as T. destruct (w ++ l) eqn:Q; [apply app_eq_nil in Q as [-> ->]; discriminate|]. rewrite T.
  unfold store_int. destruct ((z <? -2147483648) || (2147483647 <? z)); [reflexivity|].
  cbn [In] in Ik. destruct Ik as [<-|[<-|[<-|[<-|[<-|[<-|[<-|[<-|[<-|[]]]]]]]]]]; reflexivity.
Qed.

(** False for numbers an int does not hold, also for a variable that could hold it. *)
Theorem C114_range_refuted : forall f v w z tail line inp rest, v_known v = true ->
  In (v_kind v) [KInt; KI32; KU32; KUint; KRune] -> z < -2147483648 \/ 2147483648 <= z ->
  decimal w z -> spread tail [w] line -> next_line inp line rest -> ~ In 0%N line ->
  scan strtod f [v] inp = UB.
Proof.
  intros f v w z tail line inp rest Kn Ik Rz D Sp NL Z. rewrite (scan_line f [v] inp line rest) by (auto; cbn; lia).
  inversion Sp as [|sp w' ws' l W Sl E]; subst. inversion Sl; subst. cbn [map fmt_of]. rewrite sscanf_spec.
  unfold info. rewrite Kn.
  assert (C : conv_of F strtod f (Some (v_kind v)) (sp ++ w ++ l) = conv_int F (sp ++ w ++ l)).
  { cbn [In] in Ik. destruct Ik as [<-|[<-|[<-|[<-|[<-|[]]]]]]; reflexivity. }
  rewrite C. unfold conv_int. rewrite skip_white, skip_word by (eauto using decimal_word).
  pose proof (take_decimal w z l D E) as T. destruct (w ++ l) eqn:Q; [apply app_eq_nil in Q as [-> ->]; discriminate|]. rewrite T.
  unfold store_int. destruct (Z.ltb_spec z (-2147483648)), (Z.ltb_spec 2147483647 z); cbn [orb]; auto; lia.
Qed.

(** False for the small integers i8, u8 and byte: the first character is taken, not the number. *)
Theorem C114_byte_refuted : forall f v c w tail line inp rest, v_known v = true -> In (v_kind v) [KI8; KU8; KByte] ->
  ~ white c -> (c < 128)%N -> spread tail [c :: w] line -> next_line inp line rest -> ~ In 0%N line ->
  scan strtod f [v] inp = Ok ([mkvar (v_kind v) true (VInt (Z.of_N c))], 1, rest).
Proof.
  intros f v c w tail line inp rest Kn Ik Nc L Sp NL Z. rewrite (scan_line f [v] inp line rest) by (auto; cbn; lia).
  inversion Sp as [|sp w' ws' l W Sl E]; subst. inversion Sl; subst. cbn [map fmt_of]. rewrite sscanf_spec.
  unfold info. rewrite Kn.
  assert (C : conv_of F strtod f (Some (v_kind v)) (sp ++ (c :: w) ++ l) = Found F (fun k => store_char F k c) (w ++ l)).
  { rewrite <- conv_skip, skip_white, conv_skip by auto. cbn [In] in Ik. destruct Ik as [<-|[<-|[<-|[]]]]; cbn [conv_of app]; rewrite skip_stop by auto; reflexivity. }
  rewrite C. apply N.ltb_lt in L.
  assert (Q : store_char F (v_kind v) c = Ok (VInt (Z.of_N c))).
  { cbn [In] in Ik. destruct Ik as [<-|[<-|[<-|[]]]]; cbn [store_char]; rewrite ?L; reflexivity. }
  rewrite Q. cbn [bind pad flat_map sscanf]. reflexivity.
Qed.

(** False for readln(s) with a string: the text is written over the pointer. *)
Theorem C114_string_refuted : forall v w tail line inp rest, v_known v = true -> v_kind v = KString ->
  word w -> spread tail [w] line -> next_line inp line rest -> ~ In 0%N line -> scan strtod Readln [v] inp = UB.
Proof.
  intros v w tail line inp rest Kn Kk Wd Sp NL Z. rewrite (scan_line Readln [v] inp line rest) by (auto; cbn; lia).
  inversion Sp as [|sp w' ws' l W Sl E]; subst. inversion Sl; subst. cbn [map fmt_of]. rewrite sscanf_spec.
  unfold info. rewrite Kn, Kk. cbn [conv_of]. unfold conv_text. rewrite skip_white, skip_word by auto.
  destruct Wd as [N Wd]. pose proof (take_word_ok w l Wd E) as T. destruct w as [|c w]; [contradiction|]. cbn [app] in *. rewrite T. reflexivity.
Qed.
End Props.
Print Assumptions C114_scan_partial.
Print Assumptions C114_short_partial.
Print Assumptions C114_stop_partial.
Print Assumptions C114_end.
Print Assumptions C114_many_refuted.
Print Assumptions C114_size_refuted.
Print Assumptions C114_range_refuted.
Print Assumptions C114_byte_refuted.
Print Assumptions C114_string_refuted.

(** A number, a word and a character on one line; then another line. *)
Definition nofloat (t : bytes) : option (unit * bytes) := None.
Definition three : list (var unit) := [mkvar KI32 true (VInt 0); mkvar KString true (VText None); mkvar KChar true (VInt 0)].
Example C114_line : fit Prompt three /\
  Forall2 (fun v '(w, x) => typed nofloat (v_kind v) w x) three (combine [bs "-42"; bs "ada"; bs "x"] [VInt (-42); VText (Some (bs "ada")); VInt 120]) /\
  spread (bs " !") [bs "-42"; bs "ada"; bs "x"] (bs "  -42 ada x !") /\
  next_line (bs "  -42 ada x !" ++ 10%N :: bs "more") (bs "  -42 ada x !") (bs "more").
Proof.
  assert (Wh : forall w, forallb (fun c => negb (is_blank c)) w = true -> forall c, In c w -> ~ white c).
  { intros w H c X Y. rewrite forallb_forall in H. apply white_spec in Y. specialize (H c X). rewrite Y in H. discriminate. }
  splits.
  - split; [cbn; lia|]. repeat constructor; auto.
  - cbn [combine three]. constructor; [|constructor; [|constructor; [|constructor]]].
    + apply typed_int; [cbn; auto| |lia]. apply (decimal_minus (bs "42") 42). apply (digits_more (bs "4") 4 2); [|lia]. apply (digits_one 4). lia.
    + apply typed_text. split; [discriminate|]. apply Wh. reflexivity.
    + apply typed_char; [cbn; auto| |reflexivity]. apply (Wh [120%N] eq_refl). now left.
  - apply (spread_word (bs " !") (bs "  ") (bs "-42") _ (bs " ada x !")).
    + repeat constructor.
    + apply (spread_word (bs " !") (bs " ") (bs "ada") _ (bs " x !")).
      * repeat constructor.
      * apply (spread_word (bs " !") (bs " ") (bs "x") [] (bs " !")); [repeat constructor|constructor|repeat constructor].
      * repeat constructor.
    + repeat constructor.
  - split; [|left; reflexivity]. intros X. revert X. apply (fun H => H : ~ In 10%N _). cbn. intuition discriminate.
Qed.
Example C114_line_run : scan nofloat Prompt three (bs "  -42 ada x !" ++ 10%N :: bs "more") =
  Ok (given three [VInt (-42); VText (Some (bs "ada")); VInt 120], 3, bs "more").
Proof. vm_compute. reflexivity. Qed.
