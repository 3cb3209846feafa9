(** Proofs for C67. *)
From Verif Require Import Common IntLit_Model IntLit_Spec IntLit_Proofs StrLit_Spec Embed_Model Embed_Spec.
Local Open Scope N_scope.

Lemma hexdig_ok d : d < 16 -> hexdigit (hexdig d) d.
Proof.
  intros L. unfold hexdig, hexdigit. destruct (N.ltb_spec d 10); [left|right; left]; lia.
Qed.
Lemma hex2_value b : b < 256 -> hex_value (hex2 b) 0 b.
Proof.
  intros L. unfold hex2.
  assert (16 * (16 * 0 + b / 16) + b mod 16 = b) as E by (pose proof (N.div_mod b 16); lia).
  rewrite <- E at 3. apply (hv_cons _ (b / 16)); [apply hexdig_ok; apply N.div_lt_upper_bound; lia|].
  apply (hv_cons _ (b mod 16)); [apply hexdig_ok; apply N.mod_lt; lia|]. constructor.
Qed.

Definition els (file : bytes) : bytes := concat (map (fun b => [48; 120] ++ hex2 b ++ [44]) file).
Definition escs (file : bytes) : bytes := concat (map (fun b => [92; 120] ++ hex2 b) file).
Lemma els_ok file : Forall (fun b => b < 256) file -> Elements (els file) file.
Proof.
  induction 1 as [|b r B F IH]; [constructor|].
  change (els (b :: r)) with (bs "0x" ++ hex2 b ++ bs "," ++ els r).
  constructor; [discriminate|now apply hex2_value|exact IH].
Qed.
Lemma els_length file : length (els file) = (5 * length file)%nat.
Proof. induction file as [|b r IH]; [reflexivity|]. change (els (b :: r)) with ([48; 120] ++ hex2 b ++ [44] ++ els r). rewrite !app_length, IH. cbn. lia. Qed.
Lemma escs_length file : length (escs file) = (4 * length file)%nat.
Proof. induction file as [|b r IH]; [reflexivity|]. change (escs (b :: r)) with ([92; 120] ++ hex2 b ++ escs r). rewrite !app_length, IH. cbn. lia. Qed.
Lemma escs_ok file : Forall (fun b => b < 256) file -> Denotes c_plain (escs file) file.
Proof.
  induction 1 as [|b r B F IH]; [constructor|].
  change (escs (b :: r)) with (92 :: 120 :: hex2 b ++ escs r).
  apply D_hex; [discriminate|now apply hex2_value| |exact B|exact IH].
  destruct r as [|c r]; cbn; [exact I|]. intros (d & [H|[H|H]]); lia.
Qed.
Lemma map_els file : concat (map (fun b => [48; 120] ++ hex2 b ++ [44]) file) = els file.
Proof. reflexivity. Qed.

Lemma len_ok n : n < 2 ^ 31 -> c_constant (print_llu n) n /\ (length (print_llu n) <= 20)%nat.
Proof.
  intros L. split.
  - assert (n < 10 ^ N.of_nat 20) as L20 by (change (10 ^ N.of_nat 20) with 100000000000000000000; lia).
    destruct (decimal_ok 20 n L20) as (c & ds & E & Nm & Z & _); [lia|]. unfold print_llu. rewrite E.
    constructor; auto. lia.
  - unfold print_llu. clear L. revert n.
    assert (forall f n, (length (decimal f n) <= f)%nat) as H; [|intros; apply H].
    induction f as [|f IH]; intros n; cbn [decimal]; [cbn; lia|]. rewrite app_length. cbn [length].
    specialize (IH (n / 10)). destruct (n <? 10); cbn [length]; lia.
Qed.

Definition is_str (t : bytes) : bool := beq_bytes t (bs "string") || beq_bytes t (bs "char*").
Lemma is_str_false t : t <> bs "string" -> t <> bs "char*" -> is_str t = false.
Proof.
  intros A B. unfold is_str. destruct (beq_bytes t (bs "string")) eqn:E; [apply beq_bytes_true in E; easy|].
  destruct (beq_bytes t (bs "char*")) eqn:E'; [apply beq_bytes_true in E'; easy|reflexivity].
Qed.

Lemma embed_other t o tg file tail :
  embed_head t = Ok (o, tg) -> is_str tg = false ->
  tail = (if is_prefix (bs "(Slice_") o
          then bs "},.len=" ++ print_llu (N.of_nat (length file)) ++ bs ",.cap=" ++ print_llu (N.of_nat (length file)) ++ bs "}"
          else bs "}") ->
  N.of_nat (length file) < 2 ^ 31 -> (length o <= 160)%nat ->
  embed_bytes t file = Ok (o ++ els file ++ tail).
Proof.
  intros H S -> L O. unfold embed_bytes. rewrite H. cbn [bind]. change (beq_bytes tg (bs "string") || beq_bytes tg (bs "char*")) with (is_str tg).
  rewrite S. cbv zeta. rewrite map_els.
  replace (2 ^ 31 <=? N.of_nat (length file)) with false by (symmetry; apply N.leb_gt; exact L). cbn [orb].
  destruct (len_ok _ L) as [_ P].
  assert ((length (if is_prefix (bs "(Slice_") o
          then bs "},.len=" ++ print_llu (N.of_nat (length file)) ++ bs ",.cap=" ++ print_llu (N.of_nat (length file)) ++ bs "}"
          else bs "}") <= 60)%nat) as T.
  { destruct (is_prefix _ o); [|cbn; lia]. rewrite !app_length. revert P. generalize (length (print_llu (N.of_nat (length file)))). intros k P. cbn. lia. }
  match goal with |- (if ?a <? ?b then _ else _) = _ => replace (a <? b) with false; [reflexivity|symmetry; apply N.ltb_ge] end.
  rewrite !app_length, els_length. lia.
Qed.

Lemma embed_string ts file : is_str ts = true -> N.of_nat (length file) < 2 ^ 31 ->
  embed_bytes (EOther ts) file = Ok (bs "(char*)" ++ 34 :: escs file ++ [34]).
Proof.
  intros S L. unfold embed_bytes, embed_head. fold (is_str ts). rewrite S. cbn [bind]. fold (is_str ts). rewrite S. cbv zeta.
  replace (2 ^ 31 <=? N.of_nat (length file)) with false by (symmetry; apply N.leb_gt; exact L). cbn [orb].
  fold (escs file).
  match goal with |- (if ?a <? ?b then _ else _) = _ => replace (a <? b) with false; [now rewrite <- !app_assoc|symmetry; apply N.ltb_ge] end.
  rewrite !app_length, escs_length. cbn [length]. change (length (bs "(char*)")) with 7%nat. lia.
Qed.

Lemma escs_chars file : Forall (fun b => b < 256) file -> Forall (fun c => c <> 125 /\ c <> 34) (escs file).
Proof.
  induction 1 as [|b r B F IH]; [constructor|].
  change (escs (b :: r)) with ([92; 120] ++ hex2 b ++ escs r). apply Forall_app. split; [repeat constructor; discriminate|].
  apply Forall_app. split; [|exact IH].
  assert (forall d, d < 16 -> hexdig d <> 125 /\ hexdig d <> 34) as H.
  { intros d D. unfold hexdig. destruct (N.ltb_spec d 10); lia. }
  constructor; [apply H; apply N.div_lt_upper_bound; lia|]. constructor; [apply H; apply N.mod_lt; lia|constructor].
Qed.

Lemma prefix_app p : forall ty c r, ~ In c p -> is_prefix p (ty ++ c :: r) = true -> is_prefix p ty = true.
Proof.
  induction p as [|x p IH]; intros ty c r N H; [reflexivity|]. destruct ty as [|y ty]; cbn [app is_prefix] in *.
  - apply andb_prop in H. destruct H as [H _]. apply N.eqb_eq in H. elim N. now left.
  - apply andb_prop in H. destruct H as [-> H]. apply (IH ty c r); [intros X; apply N; now right|exact H].
Qed.
