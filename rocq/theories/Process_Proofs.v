From Verif Require Import Common Vec_Model Vec_Proofs String_Model String_Spec String_Proofs String_Props Url_Proofs
  Process_Model Process_Spec.

Definition joined (p : bytes) (l : list bytes) : bytes := p ++ flat_map (fun a => bs " " ++ a) l.

Lemma put_args_ok l : forall ls o b, Forall2 shold l ls -> shold o b ->
  exists o', put_args o l = Ok o' /\ shold o' (b ++ flat_map (fun a => bs " " ++ a) ls).
Proof.
  induction l as [|a l IH]; intros ls o b F H; inversion F as [|? y ? l' Ha Fl]; subst; cbn [put_args flat_map].
  - exists o. now rewrite app_nil_r.
  - destruct (snew_ok (bs " ")) as (sp & -> & Hs). cbn [bind].
    destruct (sappend_ok _ _ _ _ H Hs) as (o1 & -> & H1). cbn [bind].
    destruct (sappend_ok _ _ _ _ H1 Ha) as (o2 & -> & H2). cbn [bind].
    destruct (IH _ _ _ Fl H2) as (o3 & -> & H3).
    exists o3. split; [reflexivity|]. rewrite <- !app_assoc in *. exact H3.
Qed.

Lemma build_ok c p l : shold (program c) p -> short p -> Forall2 shold (args c) l ->
  exists s, build_cmd c = Ok s /\ shold s (joined p l).
Proof.
  intros H S F. unfold build_cmd. rewrite (slength_ok _ _ H).
  destruct (substr_nat _ _ 0 (length p) H S ltac:(lia)) as (s & E & Hs).
  change (N.of_nat 0) with 0%N in E. rewrite E. cbn [bind].
  rewrite firstn_all2 in Hs by (rewrite skipn_O; lia).
  destruct (put_args_ok _ _ _ _ F Hs) as (s' & -> & H'). exists s'. now split.
Qed.

(** ** The shell reads the words back *)
Lemma pieces_app p a b : forallb (fun c => negb (p c)) a = true ->
  pieces p (a ++ b) = match pieces p b with w :: ws => (a ++ w) :: ws | [] => [a] end.
Proof.
  assert (NE : forall t, pieces p t <> []).
  { destruct t; cbn; [discriminate|]. destruct (p n); [discriminate|]. destruct (pieces p t); discriminate. }
  induction a as [|c a IH]; intros H; cbn in *.
  - destruct (pieces p b) eqn:E; [now apply NE in E|reflexivity].
  - apply andb_true_iff in H as [Hc H]. apply negb_true_iff in Hc. rewrite Hc, (IH H).
    destruct (pieces p b); reflexivity.
Qed.
Lemma pieces_none p a : forallb (fun c => negb (p c)) a = true -> pieces p a = [a].
Proof. intros H. rewrite <- (app_nil_r a) at 1. rewrite (pieces_app p a [] H). cbn. now rewrite app_nil_r. Qed.

Lemma inert_not c : inert c = true -> is_blank c = false /\ is_sep c = false /\ c <> 0%N.
Proof.
  intros H. unfold inert in H. apply orb_true_iff in H as [H|H].
  - unfold is_blank, is_sep. change (ch ";") with 59%N.
    assert (48 <= c <= 57 \/ 65 <= c <= 90 \/ 97 <= c <= 122)%N.
    { rewrite !orb_true_iff, !andb_true_iff, !N.leb_le in H. lia. }
    splits; [apply orb_false_iff; split; apply N.eqb_neq; lia|
             apply orb_false_iff; split; apply N.eqb_neq; lia|lia].
  - apply existsb_exists in H as (d & I & E). apply N.eqb_eq in E. subst d.
    cbn in I. repeat (destruct I as [<-|I]; [splits; (reflexivity || discriminate)|]). destruct I.
Qed.
Lemma plain_nosep w : Forall (fun c => inert c = true) w -> forallb (fun c => negb (is_sep c)) w = true.
Proof. intros F. apply forallb_forall. intros c I. rewrite Forall_forall in F. now rewrite (proj1 (proj2 (inert_not c (F c I)))). Qed.
Lemma plain_noblank w : Forall (fun c => inert c = true) w -> forallb (fun c => negb (is_blank c)) w = true.
Proof. intros F. apply forallb_forall. intros c I. rewrite Forall_forall in F. now rewrite (proj1 (inert_not c (F c I))). Qed.
Lemma plain_nonul w : Forall (fun c => inert c = true) w -> ~ In 0%N w.
Proof. intros F I. rewrite Forall_forall in F. now destruct (inert_not _ (F _ I)) as (_ & _ & H). Qed.

Lemma pieces_joined p l : Forall (fun c => inert c = true) p -> Forall (Forall (fun c => inert c = true)) l ->
  pieces is_blank (joined p l) = p :: l.
Proof.
  unfold joined. intros P F. revert p P. induction F as [|a l A F IH]; intros p P; cbn [flat_map].
  - rewrite app_nil_r. apply pieces_none, plain_noblank, P.
  - rewrite pieces_app by now apply plain_noblank.
    change ((bs " " ++ a) ++ flat_map (fun a => bs " " ++ a) l) with
      (32%N :: (a ++ flat_map (fun a => bs " " ++ a) l)).
    cbn [pieces is_blank]. change (is_blank 32) with true. cbn iota. rewrite (IH a A). now rewrite app_nil_r.
Qed.

Lemma joined_nosep p l : Forall (fun c => inert c = true) p -> Forall (Forall (fun c => inert c = true)) l ->
  forallb (fun c => negb (is_sep c)) (joined p l) = true.
Proof.
  intros P F. unfold joined. rewrite forallb_app, plain_nosep by auto. cbn.
  induction F as [|a l A F IH]; cbn [flat_map]; [reflexivity|].
  rewrite forallb_app. change (bs " " ++ a) with (32%N :: a). cbn [forallb].
  rewrite plain_nosep by auto. exact IH.
Qed.
Definition okc c := inert c || is_blank c || is_sep c.
Lemma inert_ok w : Forall (fun c => inert c = true) w -> forallb okc w = true.
Proof. intros F. apply forallb_forall. intros c I. rewrite Forall_forall in F. unfold okc. now rewrite (F c I). Qed.
Lemma joined_ok p l : Forall (fun c => inert c = true) p -> Forall (Forall (fun c => inert c = true)) l ->
  forallb okc (joined p l) = true.
Proof.
  intros P F. unfold joined. rewrite forallb_app, inert_ok by auto. cbn.
  induction F as [|a l A F IH]; cbn [flat_map]; [reflexivity|].
  rewrite forallb_app. change (bs " " ++ a) with (32%N :: a). cbn [forallb].
  rewrite inert_ok by auto. exact IH.
Qed.

Lemma filter_plain l : Forall plain l -> filter (@nonempty N) l = l.
Proof. induction 1 as [|a l [A _] F IH]; cbn; [reflexivity|]. destruct a; [now destruct A|]. cbn. now rewrite IH. Qed.

Lemma plains l : Forall plain l -> Forall (Forall (fun c => inert c = true)) l.
Proof. apply Forall_impl. now intros a [_ A]. Qed.

Lemma words_joined p l : Forall (fun c => inert c = true) p -> Forall (Forall (fun c => inert c = true)) l ->
  words (joined p l) = filter nonempty (p :: l).
Proof. intros P F. unfold words. now rewrite pieces_joined. Qed.

Lemma shell_joined p l : plain p -> is_reserved p = false -> Forall (Forall (fun c => inert c = true)) l ->
  shell (joined p l) = Some [p :: filter nonempty l].
Proof.
  intros [NE P] R F. unfold shell. rewrite pieces_none by now apply joined_nosep.
  cbn [map]. rewrite words_joined by auto. change (fun c => inert c || is_blank c || is_sep c) with okc.
  rewrite joined_ok by auto. destruct p as [|c p]; [now destruct NE|]. cbn [filter nonempty existsb starts_reserved].
  rewrite R. reflexivity.
Qed.

(** Two commands joined by a semicolon *)
Lemma shell_two p l q m : plain p -> is_reserved p = false -> Forall (Forall (fun c => inert c = true)) l ->
  plain q -> is_reserved q = false -> Forall (Forall (fun c => inert c = true)) m ->
  shell (joined p l ++ bs ";" ++ joined q m) = Some [p :: filter nonempty l; q :: filter nonempty m].
Proof.
  intros [NE P] R F [NE' P'] R' F'. unfold shell.
  rewrite pieces_app by now apply joined_nosep.
  change (bs ";" ++ joined q m) with (59%N :: joined q m). cbn [pieces]. change (is_sep 59) with true. cbn iota.
  rewrite pieces_none by now apply joined_nosep. rewrite app_nil_r.
  cbn [map]. rewrite !words_joined by auto. change (fun c => inert c || is_blank c || is_sep c) with okc.
  rewrite forallb_app, joined_ok by auto. cbn [forallb]. rewrite joined_ok by auto.
  destruct p as [|c p]; [now destruct NE|]. destruct q as [|d q]; [now destruct NE'|].
  cbn [filter nonempty existsb starts_reserved]. rewrite R, R'. reflexivity.
Qed.

(** ** Collecting the output *)
Lemma line_app n : forall s l r, line n s = (l, r) -> s = l ++ r.
Proof.
  induction n as [|n IH]; intros s l r H; cbn in H.
  - now injection H as <- <-.
  - destruct s as [|c s]; [now injection H as <- <-|].
    destruct (c =? 10)%N; [now injection H as <- <-|].
    destruct (line n s) as [l' r'] eqn:E. injection H as <- <-. cbn. f_equal. now apply IH.
Qed.
Lemma line_nonempty n c s l r : line (S n) (c :: s) = (l, r) -> l <> [].
Proof. cbn. destruct (c =? 10)%N; [now intros [= <- <-]|]. destruct (line n s). now intros [= <- <-]. Qed.
Lemma line_all n : forall s, length s <= n -> ~ In 10%N s -> line n s = (s, []).
Proof.
  induction n as [|n IH]; intros [|c s] L I; cbn in *; try reflexivity; [lia|].
  destruct (N.eqb_spec c 10) as [->|]; [tauto|]. rewrite IH by (tauto || lia). reflexivity.
Qed.

Lemma n1023 : N.to_nat 1024 - 1 = S (N.to_nat 1022).
Proof. change 1 with (N.to_nat 1). rewrite <- N2Nat.inj_sub, <- N2Nat.inj_succ. reflexivity. Qed.

Lemma collect_ok : forall fuel s out b, length s < fuel -> nonul s -> shold out b ->
  exists o, collect fuel out s = Ok o /\ shold o (b ++ s).
Proof.
  induction fuel as [|fuel IH]; intros s out b L Z H; [lia|].
  cbn [collect]. unfold fgets. destruct s as [|c s].
  - exists out. now rewrite app_nil_r.
  - rewrite n1023. destruct (line (S (N.to_nat 1022)) (c :: s)) as [l r] eqn:E.
    assert (NE := line_nonempty _ _ _ _ _ E). apply line_app in E.
    assert (Zs := Z). rewrite E in Zs. apply Forall_app in Zs as [Zl Zr].
    destruct (snew_ok l) as (ck & -> & Hc). cbn [bind]. rewrite cstr_id in Hc by auto.
    destruct (sappend_ok _ _ _ _ H Hc) as (o & -> & Ho). cbn [bind].
    destruct (IH r o _ ltac:(apply (f_equal (@length N)) in E; rewrite app_length in E; destruct l; [now destruct NE|cbn in *; lia]) Zr Ho)
      as (o' & -> & Ho').
    exists o'. split; [reflexivity|]. rewrite E. now rewrite app_assoc.
Qed.
