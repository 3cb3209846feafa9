From Verif Require Import Common StrLit_Model StrLit_Spec.
Local Open Scope N_scope.

Fixpoint esc (s : bytes) : bytes :=
  match s with
  | [] => []
  | c :: r =>
    if c =? 92 then match r with [] => [c] | d :: r' => c :: d :: esc r' end
    else if c =? 10 then 92 :: 110 :: esc r
    else if c =? 13 then 92 :: 114 :: esc r
    else if c =? 9 then 92 :: 116 :: esc r
    else if c =? 34 then 92 :: 34 :: esc r
    else c :: esc r
  end.

Lemma two_ind (P : bytes -> Prop) : P [] -> (forall c, P [c]) ->
  (forall c d r, P r -> P (d :: r) -> P (c :: d :: r)) -> forall s, P s.
Proof.
  intros H0 H1 H2 s. assert (P s /\ forall c, P (c :: s)) as [X _]; [|exact X].
  induction s as [|d s [I1 I2]]; [auto|]. split; [apply I2|]. intros c. apply H2; auto.
Qed.

Lemma escape_loop_ok s : forall room, (length s * 2 <= room)%nat -> escape_loop room s = Ok (esc s).
Proof.
  revert s. apply (two_ind (fun s => forall room, (length s * 2 <= room)%nat -> escape_loop room s = Ok (esc s))).
  all: [> intros room L | intros c room L | intros c d r IHr IHd room L].
  - reflexivity.
  - cbn [length] in L. destruct room as [|[|room]]; [lia|lia|]. cbn [escape_loop esc bind].
    destruct (c =? 92), (c =? 10), (c =? 13), (c =? 9), (c =? 34); reflexivity.
  - cbn [length] in L, IHd. destruct room as [|[|room]]; [lia|lia|]. 
    assert (Ld : (S (length r) * 2 <= room)%nat) by lia.
    assert (Lr : (length r * 2 <= room)%nat) by lia.
    pose proof (IHd room Ld) as E1. pose proof (IHr room Lr) as E2.
    assert (E3 := IHd (S room) ltac:(lia)).
    change (esc (c :: d :: r)) with
      (if c =? 92 then c :: d :: esc r
       else if c =? 10 then 92 :: 110 :: esc (d :: r)
       else if c =? 13 then 92 :: 114 :: esc (d :: r)
       else if c =? 9 then 92 :: 116 :: esc (d :: r)
       else if c =? 34 then 92 :: 34 :: esc (d :: r)
       else c :: esc (d :: r)).
    change (escape_loop (S (S room)) (c :: d :: r)) with
      (if c =? 92 then do o <- escape_loop room r; Ok (c :: d :: o)
       else if c =? 10 then do o <- escape_loop room (d :: r); Ok (92 :: 110 :: o)
       else if c =? 13 then do o <- escape_loop room (d :: r); Ok (92 :: 114 :: o)
       else if c =? 9 then do o <- escape_loop room (d :: r); Ok (92 :: 116 :: o)
       else if c =? 34 then do o <- escape_loop room (d :: r); Ok (92 :: 34 :: o)
       else do o <- escape_loop (S room) (d :: r); Ok (c :: o)).
    rewrite E1, E2, E3. cbn [bind].
    destruct (c =? 92), (c =? 10), (c =? 13), (c =? 9), (c =? 34); reflexivity.
Qed.
Lemma escape_ok s : escape_c_string s = Ok (esc s).
Proof. apply escape_loop_ok. lia. Qed.

Lemma esc_cons c r : c <> 92 -> esc (c :: r) =
  (if c =? 10 then 92 :: 110 :: esc r else if c =? 13 then 92 :: 114 :: esc r
   else if c =? 9 then 92 :: 116 :: esc r else if c =? 34 then 92 :: 34 :: esc r else c :: esc r).
Proof. intros N. cbn [esc]. destruct (N.eqb_spec c 92); [contradiction|reflexivity]. Qed.

Definition dull (c : N) : Prop := 35 <= c /\ c <> 92.
Lemma esc_dull ds r : Forall dull ds -> esc (ds ++ r) = ds ++ esc r.
Proof.
  induction 1 as [|c ds [A B] _ IH]; [reflexivity|]. cbn [app]. rewrite esc_cons by assumption.
  destruct (N.eqb_spec c 10); [lia|]. destruct (N.eqb_spec c 13); [lia|]. destruct (N.eqb_spec c 9); [lia|].
  destruct (N.eqb_spec c 34); [lia|]. now rewrite IH.
Qed.
Lemma stops_esc (P : N -> Prop) r : ~ P 92 -> stops P r -> stops P (esc r).
Proof.
  intros N S. destruct r as [|c r]; [exact I|]. cbn [esc]. cbn in S.
  destruct (c =? 92), (c =? 10), (c =? 13), (c =? 9), (c =? 34), r; cbn; assumption.
Qed.
Lemma octal_dull ds : Forall octal ds -> Forall dull ds.
Proof. apply Forall_impl. unfold octal, dull. lia. Qed.
Lemma hex_dull hs a x : hex_value hs a x -> Forall dull hs.
Proof. induction 1; constructor; auto. unfold hexdigit, dull in *. lia. Qed.
Lemma is_hex_92 : ~ is_hex 92.
Proof. intros (d & H). unfold hexdigit in H. lia. Qed.

Lemma esc_denotes P s v : Denotes P s v -> Denotes c_plain (esc s) v.
Proof.
  induction 1 as [|c r v Pc N D IH|e x r v I D IH|ds r v N L F M V D IH|hs x r v N HV S V D IH].
  - constructor.
  - rewrite esc_cons by assumption.
    destruct (N.eqb_spec c 10) as [->|]; [apply D_simple; [cbn; tauto|assumption]|].
    destruct (N.eqb_spec c 13) as [->|]; [apply D_simple; [cbn; tauto|assumption]|].
    destruct (N.eqb_spec c 9) as [->|]; [apply D_simple; [cbn; tauto|assumption]|].
    destruct (N.eqb_spec c 34) as [->|]; [apply D_simple; [cbn; tauto|assumption]|].
    apply D_char; [split|..]; assumption.
  - cbn [esc N.eqb Pos.eqb]. now apply D_simple.
  - destruct ds as [|d ds]; [congruence|]. cbn [app esc N.eqb Pos.eqb].
    rewrite esc_dull by (apply octal_dull; now inversion F).
    apply (D_octal c_plain (d :: ds)); auto. destruct M as [M|M]; [now left|right].
    apply stops_esc; [unfold octal; lia|assumption].
  - cbn [app esc N.eqb Pos.eqb]. rewrite esc_dull by (eapply hex_dull; eassumption).
    apply D_hex; auto. apply stops_esc; [apply is_hex_92|assumption].
Qed.

(** A body that denotes something contains no bare quote and does not end in a lone
    backslash. *)
Lemma z_plain_head b v r : Denotes z_plain b v -> b = 34 :: r -> False.
Proof. intros D ->. inversion D; subst; try discriminate. unfold z_plain in *. congruence. Qed.
Lemma existsb_brace b : ~ In 123 b -> existsb (N.eqb 123) b = false.
Proof.
  intros N. destruct (existsb (N.eqb 123) b) eqn:E; [|reflexivity]. exfalso. apply existsb_exists in E.
  destruct E as (x & I & E). apply N.eqb_eq in E. now subst x.
Qed.
Lemma plain_emit b : ~ In 123 b -> (forall r, b <> 34 :: r) -> emit_string false (34 :: b ++ [34]) = Ok (Some (34 :: esc b ++ [34])).
Proof.
  intros N Q. unfold emit_string, parse_string_literal. cbn [length].
  assert (E : Nat.leb 6 (S (length (b ++ [34]))) && is_prefix [34; 34; 34] (34 :: b ++ [34]) = false).
  { destruct b as [|c b]; [reflexivity|]. cbn [app is_prefix]. destruct (N.eqb_spec 34 c) as [<-|]; [now destruct (Q b)|].
    cbn. now rewrite andb_false_r. }
  rewrite E. rewrite app_length. cbn [length].
  destruct (Nat.ltb_spec (S (length b + 1)) 2); [lia|].
  replace (S (length b + 1) - 2)%nat with (length b) by lia. cbn [skipn].
  rewrite firstn_app, Nat.sub_diag, firstn_O, firstn_all, app_nil_r. rewrite existsb_brace by assumption.
  rewrite escape_ok. reflexivity.
Qed.
Lemma triple_emit b : ~ In 123 b -> emit_string false ([34; 34; 34] ++ b ++ [34; 34; 34]) = Ok (Some (34 :: esc b ++ [34])).
Proof.
  intros N. unfold emit_string, parse_string_literal. 
  assert (E : Nat.leb 6 (length ([34; 34; 34] ++ b ++ [34; 34; 34])) && is_prefix [34; 34; 34] ([34; 34; 34] ++ b ++ [34; 34; 34]) = true).
  { rewrite !app_length. cbn [length app is_prefix N.eqb Pos.eqb andb]. destruct (Nat.leb_spec 6 (3 + (length b + 3))); [reflexivity|lia]. }
  rewrite E, !app_length. cbn [length].
  destruct (Nat.ltb_spec (3 + (length b + 3)) 6); [lia|].
  replace (3 + (length b + 3) - 6)%nat with (length b) by lia. cbn [skipn app].
  rewrite firstn_app, Nat.sub_diag, firstn_O, firstn_all, app_nil_r. rewrite existsb_brace by assumption.
  rewrite escape_ok. reflexivity.
Qed.
Lemma raw_emit q b : emit_string true (114 :: q :: b ++ [q]) = Ok (Some (34 :: b ++ [34])).
Proof.
  unfold emit_string, parse_raw_literal. cbn [length]. rewrite app_length. cbn [length].
  destruct (Nat.ltb_spec (S (S (length b + 1))) 3); [lia|].
  replace (S (S (length b + 1)) - 3)%nat with (length b) by lia. cbn [skipn].
  rewrite firstn_app, Nat.sub_diag, firstn_O, firstn_all, app_nil_r. reflexivity.
Qed.

(** Denotation is a function: a C literal denotes at most one byte sequence. *)
Lemma oct_app_inj ds r : forall ds' r', Forall octal ds -> Forall octal ds' ->
  (length ds = 3%nat \/ stops octal r) -> (length ds' = 3%nat \/ stops octal r') ->
  (length ds <= 3)%nat -> (length ds' <= 3)%nat -> ds ++ r = ds' ++ r' -> ds = ds' /\ r = r'.
Proof.
  intros ds' r' F F' M M' L L' E.
  assert (K : length ds = length ds').
  { destruct (Nat.lt_trichotomy (length ds) (length ds')) as [X|[X|X]]; [|assumption|]; exfalso.
    - destruct M as [M|M]; [lia|].
      assert (r = skipn (length ds) ds' ++ r').
      { apply (f_equal (skipn (length ds))) in E. rewrite skipn_app, skipn_all, Nat.sub_diag in E. cbn in E.
        rewrite skipn_app in E. replace (length ds - length ds')%nat with 0%nat in E by lia. exact E. }
      destruct (skipn (length ds) ds') as [|y ys] eqn:Y; [apply (f_equal (@length N)) in Y; rewrite skipn_length in Y; cbn in Y; lia|].
      rewrite H in M. cbn in M. apply M. rewrite Forall_forall in F'. apply F'. rewrite <- (firstn_skipn (length ds) ds'), Y. apply in_or_app. right. now left.
    - destruct M' as [M'|M']; [lia|].
      assert (r' = skipn (length ds') ds ++ r).
      { apply (f_equal (skipn (length ds'))) in E. rewrite (skipn_app _ ds'), skipn_all, Nat.sub_diag in E. cbn in E.
        rewrite skipn_app in E. replace (length ds' - length ds)%nat with 0%nat in E by lia. symmetry. exact E. }
      destruct (skipn (length ds') ds) as [|y ys] eqn:Y; [apply (f_equal (@length N)) in Y; rewrite skipn_length in Y; cbn in Y; lia|].
      rewrite H in M'. cbn in M'. apply M'. rewrite Forall_forall in F. apply F. rewrite <- (firstn_skipn (length ds') ds), Y. apply in_or_app. right. now left. }
  clear M M' L L' F F'. revert ds' K E. induction ds as [|d ds IH]; intros [|d' ds'] K E; try discriminate K; [auto|].
  injection E as -> E. injection K as K. destruct (IH _ K E) as [-> ->]. auto.
Qed.
Lemma hexdigit_fun c d d' : hexdigit c d -> hexdigit c d' -> d = d'.
Proof. unfold hexdigit. lia. Qed.
Lemma hex_app_inj hs : forall hs' r r' a x x', hex_value hs a x -> hex_value hs' a x' -> stops is_hex r -> stops is_hex r' ->
  hs ++ r = hs' ++ r' -> x = x' /\ r = r'.
Proof.
  induction hs as [|h hs IH]; intros [|h' hs'] r r' a x x' H H' S S' E; cbn [app] in E.
  - inversion H; inversion H'; subst. auto.
  - subst r. exfalso. apply S. inversion H'; subst. eexists; eassumption.
  - subst r'. exfalso. apply S'. inversion H; subst. eexists; eassumption.
  - injection E as -> E. inversion H; inversion H'; subst. 
    match goal with A : hexdigit h' ?d1, B : hexdigit h' ?d2 |- _ => pose proof (hexdigit_fun _ _ _ A B); subst end.
    eapply IH; eassumption.
Qed.
Lemma simple_fun e x y : In (e, x) simple_escapes -> In (e, y) simple_escapes -> x = y.
Proof.
  intros A B. cbn in A, B.
  repeat (destruct A as [A|A]; [injection A as <- <-; repeat (destruct B as [B|B]; [injection B; try discriminate; intros; subst; congruence|]); contradiction|]); contradiction.
Qed.
Lemma simple_not_oct e x : In (e, x) simple_escapes -> ~ octal e /\ e <> 120.
Proof.
  intros A. cbn in A. unfold octal.
  repeat (destruct A as [A|A]; [injection A as <- <-; lia|]). contradiction.
Qed.
Lemma denotes_fun P s v : Denotes P s v -> forall w, Denotes P s w -> v = w.
Proof.
  induction 1 as [|c r v Pc N D IH|e x r v I D IH|ds r v N L F M V D IH|hs x r v N HV S V D IH]; intros w W.
  - inversion W. reflexivity.
  - inversion W; subst; try congruence. f_equal. now apply IH.
  - pose proof (simple_not_oct _ _ I) as [NO NX]. inversion W; subst; try congruence.
    + f_equal; [eapply simple_fun; eassumption|now apply IH].
    + destruct ds; [congruence|]. match goal with H : _ ++ _ = _ |- _ => injection H as -> _ end.
      match goal with H : Forall octal _ |- _ => inversion H; contradiction end.
  - destruct ds as [|d ds]; [congruence|]. assert (Od : octal d) by now inversion F.
    inversion W as [|? ? ? ? ? ? E|? ? ? ? I D' E|ds' r' v' N' L' F' M' V' D' E|hs x r' v' N' HV' S' V' D' E]; subst; try congruence.
    + apply simple_not_oct in I. tauto.
    + destruct (oct_app_inj ds' r' (d :: ds) r F' F M' M L' L E) as [-> ->]. f_equal. now apply IH.
    + unfold octal in Od. lia.
  - inversion W as [|? ? ? ? ? ? E|? ? ? ? I D' E|ds' r' v' N' L' F' M' V' D' E|hs' x' r' v' N' HV' S' V' D' E]; subst; try congruence.
    + apply simple_not_oct in I. tauto.
    + destruct ds'; [congruence|]. cbn [app] in E. injection E as -> E. inversion F'. unfold octal in *. lia.
    + destruct (hex_app_inj _ _ _ _ _ _ _ HV' HV S' S E) as [-> ->]. f_equal. now apply IH.
Qed.
