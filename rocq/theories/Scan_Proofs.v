(** Proofs about reading input. *)
From Verif Require Import Common String_Model Readln_Model Scan_Model Scan_Spec.
Local Open Scope Z_scope.

Lemma white_spec c : is_blank c = true <-> white c.
Proof.
  unfold is_blank, white, blank. cbn [In].
  destruct (N.eqb_spec c 32), (N.leb_spec 9 c), (N.leb_spec c 13); cbn [orb andb]; split; intros X; try discriminate; try lia; auto.
Qed.
Lemma not_white c : ~ white c -> is_blank c = false.
Proof. intros H. destruct (is_blank c) eqn:E; [apply white_spec in E; contradiction|reflexivity]. Qed.
Lemma skip_white sp t : Forall white sp -> skip (sp ++ t) = skip t.
Proof. induction 1 as [|c sp H _ IH]; cbn [app skip]; [reflexivity|]. apply white_spec in H. now rewrite H. Qed.
Lemma skip_all sp : Forall white sp -> skip sp = [].
Proof. intros H. rewrite <- (app_nil_r sp), skip_white by auto. reflexivity. Qed.
Lemma skip_stop c t : ~ white c -> skip (c :: t) = c :: t.
Proof. intros H. cbn [skip]. now rewrite not_white. Qed.
Lemma skip_word w t : word w -> skip (w ++ t) = w ++ t.
Proof. intros [N H]. destruct w as [|c w]; [contradiction|]. cbn [app]. apply skip_stop, H. now left. Qed.

Lemma dig_white d : (d < 10)%N -> ~ white (48 + d).
Proof. unfold white, blank. cbn [In]. lia. Qed.
Lemma is_dig_d d : (d < 10)%N -> is_dig (48 + d) = true.
Proof. unfold is_dig. intros. destruct (N.leb_spec 48 (48 + d)), (N.leb_spec (48 + d) 57); auto; lia. Qed.
Lemma is_dig_white c : white c -> is_dig c = false.
Proof. unfold white, blank, is_dig. cbn [In]. intros. destruct (N.leb_spec 48 c), (N.leb_spec c 57); auto; lia. Qed.
Lemma digits_all w z : digits w z -> w <> [] /\ 0 <= z /\ forall c, In c w -> exists d, (d < 10)%N /\ c = (48 + d)%N.
Proof.
  induction 1 as [d L|w z d _ (N & P & A) L].
  - splits; [discriminate|lia|]. intros c [<-|[]]. exists d. auto.
  - splits; [destruct w; discriminate|lia|]. intros c X. apply in_app_or in X as [X|[<-|[]]]; [auto|exists d; auto].
Qed.
Lemma digits_take w z : digits w z -> forall acc l, take_digits (w ++ l) acc = take_digits l (acc * 10 ^ Z.of_nat (length w) + z).
Proof.
  induction 1 as [d L|w z d D IH L]; intros acc l.
  - cbn [app take_digits length]. rewrite is_dig_d by auto. f_equal. change (10 ^ Z.of_nat 1) with 10. lia.
  - rewrite <- app_assoc, IH. cbn [app take_digits]. rewrite is_dig_d by auto. f_equal.
    rewrite app_length. cbn [length]. replace (Z.of_nat (length w + 1)) with (Z.of_nat (length w) + 1) by lia.
    rewrite Z.pow_add_r by lia. change (10 ^ 1) with 10. lia.
Qed.
Lemma take_end l acc : ended l -> take_digits l acc = (acc, l).
Proof. destruct l as [|c l]; cbn [ended take_digits]; [auto|]. intros H. now rewrite is_dig_white. Qed.
Lemma digits_number w z l : digits w z -> ended l -> take_digits (w ++ l) 0 = (z, l).
Proof. intros D E. rewrite (digits_take w z D), take_end by auto. reflexivity. Qed.
Lemma digits_head w z l : digits w z -> exists d r, (d < 10)%N /\ w ++ l = (48 + d)%N :: r.
Proof.
  intros D. destruct (digits_all w z D) as (N & _ & A). destruct w as [|c w]; [contradiction|].
  destruct (A c (or_introl eq_refl)) as (d & L & ->). exists d, (w ++ l). auto.
Qed.
Lemma digits_body w z l : digits w z -> ended l ->
  match w ++ l with c :: _ => if is_dig c then let '(v, r) := take_digits (w ++ l) 0 in Some (v, r) else None | [] => None end = Some (z, l).
Proof.
  intros D E. pose proof (digits_number w z l D E) as T. destruct (digits_head w z l D) as (d & r & L & H). rewrite H in *.
  rewrite is_dig_d by auto. now rewrite T.
Qed.
Lemma take_decimal w z l : decimal w z -> ended l -> take_int (w ++ l) = Some (z, l).
Proof.
  intros D E. destruct D as [w z D|w z D|w z D].
  - pose proof (digits_body w z l D E) as B. destruct (digits_head w z l D) as (d & r & L & H). rewrite H in *.
    unfold take_int. destruct (N.eqb_spec (48 + d) 45); [lia|]. destruct (N.eqb_spec (48 + d) 43); [lia|]. cbv beta iota. exact B.
  - cbn [app]. unfold take_int. change (43 =? 45)%N with false. change (43 =? 43)%N with true. cbv iota beta.
    pose proof (digits_body w z l D E) as B. destruct (w ++ l); exact B.
  - cbn [app]. unfold take_int. change (45 =? 45)%N with true. cbv iota beta.
    pose proof (digits_number w z l D E) as T. destruct (digits_head w z l D) as (d & r & L & H). rewrite H in *.
    rewrite is_dig_d by auto. now rewrite T.
Qed.
Lemma decimal_word w z : decimal w z -> word w.
Proof.
  assert (G : forall w z, digits w z -> forall c, In c w -> ~ white c).
  { intros u y D c X. destruct (digits_all u y D) as (_ & _ & A). destruct (A c X) as (d & L & ->). now apply dig_white. }
  intros [u y D|u y D|u y D].
  - split; [apply (digits_all u y D)|eauto].
  - split; [discriminate|]. intros c [<-|X]; [unfold white, blank; cbn; lia|eauto].
  - split; [discriminate|]. intros c [<-|X]; [unfold white, blank; cbn; lia|eauto].
Qed.
Lemma take_word_ok w l : (forall c, In c w -> ~ white c) -> ended l -> take_word (w ++ l) = (w, l).
Proof.
  induction w as [|c w IH]; intros H E; cbn [app].
  - destruct l as [|c l]; [reflexivity|]. cbn [ended] in E. apply white_spec in E. cbn [take_word]. now rewrite E.
  - cbn [take_word]. rewrite not_white by (apply H; now left). rewrite IH; auto. intros d X. apply H. now right.
Qed.

Definition pad (f : form) (ks : list (option kind)) : bytes := flat_map (fun k => bs " " ++ spec_of f k) ks.
Definition fmt_of (f : form) (ks : list (option kind)) : bytes := match ks with [] => [] | k :: ks => spec_of f k ++ pad f ks end.
Lemma spec_short f k : (length (spec_of f k) <= 3)%nat.
Proof. destruct k as [[]|]; destruct f; cbn; lia. Qed.
Lemma make_ok f ks : forall fmt, (length fmt + 4 * length ks < 256)%nat -> make_format f ks fmt = Ok (fmt ++ fmt_of f ks).
Proof.
  induction ks as [|k ks IH]; intros fmt L; cbn [make_format fmt_of]; [now rewrite app_nil_r|].
  pose proof (spec_short f k). cbn [length] in L. unfold strcat256.
  destruct (Nat.ltb_spec (length fmt + length (spec_of f k)) 256); [|lia]. cbn [bind]. destruct ks as [|k' ks].
  - cbn [bind make_format pad flat_map]. now rewrite app_nil_r.
  - assert (E : (length (fmt ++ spec_of f k) + length (bs " ") <? 256)%nat = true).
    { apply Nat.ltb_lt. rewrite app_length. change (length (bs " ")) with 1%nat. cbn [length] in L. lia. }
    rewrite E. cbn [bind]. rewrite IH.
    + cbn [fmt_of]. f_equal. rewrite <- !app_assoc. reflexivity.
    + rewrite !app_length. change (length (bs " ")) with 1%nat. cbn [length] in *. lia.
Qed.

Section P.
Variable F : Type.
Variable strtod : bytes -> option (F * bytes).
Notation sscanf := (@sscanf F strtod).
Notation var := (var F).

(** what each conversion does *)
Definition conv_of (f : form) (k : option kind) : bytes -> found F :=
  match k with
  | Some KF64 => conv_float F strtod true
  | Some KF32 | Some KFloat => conv_float F strtod false
  | Some KString => conv_text F (match f with Readln => false | Prompt => true end)
  | Some KChar | Some KI8 | Some KU8 | Some KByte => fun t => conv_char F (skip t)
  | _ => conv_int F
  end.
Lemma sscanf_spec f k fmt t (vars : list var) n : sscanf (spec_of f k ++ fmt) O t vars n =
  match conv_of f k t with
  | End _ => Ok (vars, if n =? 0 then -1 else n)
  | NoMatch _ => Ok (vars, n)
  | Found _ st rest =>
    match vars with
    | [] => UB
    | v :: vars => do x <- st (v_kind v); do '(vs, m) <- sscanf fmt O rest vars (n + 1); Ok (mkvar (v_kind v) (v_known v) x :: vs, m)
    end
  end.
Proof. destruct k as [[]|]; destruct f; reflexivity. Qed.
Lemma sscanf_pad f k ks t (vars : list var) n : sscanf (pad f (k :: ks)) O t vars n = sscanf (fmt_of f (k :: ks)) O (skip t) vars n.
Proof. reflexivity. Qed.
Lemma skip_skip t : skip (skip t) = skip t.
Proof. induction t as [|c t IH]; [reflexivity|]. cbn [skip]. destruct (is_blank c) eqn:E; auto. cbn [skip]. now rewrite E. Qed.
Lemma conv_skip f k t : conv_of f k (skip t) = conv_of f k t.
Proof. destruct k as [[]|]; cbn [conv_of]; unfold conv_int, conv_float, conv_text; now rewrite skip_skip. Qed.

Lemma conv_typed f k w x sp l : typed strtod k w x -> f = Prompt \/ k <> KString -> Forall white sp -> ended l ->
  exists st, conv_of f (Some k) (sp ++ w ++ l) = Found F st l /\ st k = Ok x.
Proof.
  intros T P W E. rewrite <- conv_skip, skip_white by auto. rewrite conv_skip.
  assert (I : forall w z l, decimal w z -> ended l -> conv_int F (w ++ l) = Found F (fun k => store_int F k z) l).
  { intros u z r D E'. unfold conv_int. rewrite skip_word by (eapply decimal_word; eauto). pose proof (take_decimal u z r D E') as X.
    destruct (u ++ r) eqn:Q; [|now rewrite X]. apply app_eq_nil in Q as [-> ->]. discriminate. }
  assert (S : forall k z, -2147483648 <= z < 2147483648 -> store_int F k z =
    match k with KInt | KI32 | KRune => Ok (VInt z) | KU32 | KUint => Ok (VInt (z mod 4294967296)) | _ => UB end).
  { intros k' z R. unfold store_int. destruct (Z.ltb_spec z (-2147483648)); [lia|]. destruct (Z.ltb_spec 2147483647 z); [lia|]. reflexivity. }
  destruct T as [k w z Ik D R|k w z Ik D R|k c Ik N L|k w y Ik R|w Wd].
  - exists (fun k => store_int F k z). cbn [In] in Ik. split; [destruct Ik as [<-|[<-|[<-|[]]]]; cbn [conv_of]; apply I; auto|].
    rewrite S by auto. destruct Ik as [<-|[<-|[<-|[]]]]; reflexivity.
  - exists (fun k => store_int F k z). cbn [In] in Ik. split; [destruct Ik as [<-|[<-|[]]]; cbn [conv_of]; apply I; auto|].
    rewrite S by lia. destruct Ik as [<-|[<-|[]]]; rewrite Z.mod_small by lia; reflexivity.
  - exists (fun k => store_char F k c). split.
    + cbn [In] in Ik. destruct Ik as [<-|[<-|[<-|[<-|[]]]]]; cbn [conv_of app]; rewrite skip_stop by auto; reflexivity.
    + cbn [In] in Ik. apply N.ltb_lt in L. destruct Ik as [<-|[<-|[<-|[<-|[]]]]]; cbn [store_char]; rewrite ?L; reflexivity.
  - destruct R as [Wd R]. assert (C : forall b, conv_float F strtod b (w ++ l) = Found F (fun k => store_float F b k y) l).
    { intros b. unfold conv_float. rewrite skip_word by auto. pose proof (R l E) as Rl. destruct Wd as [N _]. destruct w; [contradiction|]. cbn [app] in *. now rewrite Rl. }
    cbn [In] in Ik. destruct Ik as [<-|[<-|[<-|[]]]]; cbn [conv_of]; rewrite C; eexists; split; reflexivity.
  - destruct P as [->|P]; [|contradiction]. cbn [conv_of]. unfold conv_text. rewrite skip_word by auto. destruct Wd as [N Wd].
    pose proof (take_word_ok w l Wd E) as Tw. destruct w; [contradiction|]. cbn [app] in *. rewrite Tw. eexists. split; reflexivity.
Qed.

(** the formats left to read after the first ones *)
Definition left_fmt (f : form) (first : bool) (ks : list (option kind)) : bytes := if first then fmt_of f ks else pad f ks.
Lemma left_spec f first k ks t (vars : list var) n : sscanf (left_fmt f first (k :: ks)) O t vars n =
  match conv_of f k t with
  | End _ => Ok (vars, if n =? 0 then -1 else n)
  | NoMatch _ => Ok (vars, n)
  | Found _ st rest =>
    match vars with
    | [] => UB
    | v :: vars => do x <- st (v_kind v); do '(vs, m) <- sscanf (left_fmt f false ks) O rest vars (n + 1); Ok (mkvar (v_kind v) (v_known v) x :: vs, m)
    end
  end.
Proof.
  destruct first; cbn [left_fmt].
  - cbn [fmt_of]. rewrite sscanf_spec. reflexivity.
  - rewrite sscanf_pad. cbn [fmt_of]. rewrite sscanf_spec, conv_skip. reflexivity.
Qed.
Inductive all3 : list var -> list bytes -> list (value F) -> Prop :=
| all3_nil : all3 [] [] []
| all3_cons v vars w ws x xs : typed strtod (v_kind v) w x -> all3 vars ws xs -> all3 (v :: vars) (w :: ws) (x :: xs).
Lemma run_typed f tail more : Forall (fun v => v_known v = true /\ (f = Prompt \/ v_kind v <> KString)) more ->
  forall vars ws xs, all3 vars ws xs -> Forall (fun v => v_known v = true /\ (f = Prompt \/ v_kind v <> KString)) vars ->
  forall first t n, spread tail ws t -> sscanf (left_fmt f first (map info (vars ++ more))) O t (vars ++ more) n =
    do '(vs, m) <- sscanf (left_fmt f (match vars with [] => first | _ => false end) (map info more)) O tail more (n + Z.of_nat (length vars));
    Ok (given vars xs ++ vs, m).
Proof.
  intros M vars ws xs A. induction A as [|v vars w ws x xs T A IH]; intros K first t n Sp; inversion Sp as [|sp w' ws' l W Sl E]; subst; cbn [app length].
  - replace (n + Z.of_nat 0) with n by lia. destruct (sscanf _ _ _ more n) as [[vs m]| | |]; reflexivity.
  - inversion K as [|? ? [Kv Kf] K']; subst. cbn [map]. rewrite left_spec. unfold info at 1. rewrite Kv.
    destruct (conv_typed f (v_kind v) w x sp l T Kf W E) as (st & -> & Ex). rewrite Ex. cbn [bind].
    rewrite (IH K' false l (n + 1) Sl). replace (match vars with [] => false | _ => false end) with false by (destruct vars; reflexivity).
    replace (n + 1 + Z.of_nat (length vars)) with (n + Z.of_nat (Datatypes.S (length vars))) by lia.
    unfold given. cbn [combine map]. rewrite Kv. destruct (sscanf _ _ _ more _) as [[vs m]| | |]; reflexivity.
Qed.
End P.
