From Verif Require Import Common Cfgf_Model Cfgf_Spec Cfgf_Proofs.
Local Open Scope nat_scope.

(** C122: a call of a function is warned of exactly if the function is neither known nor listed in one of the three
    files of settings, for all files and programs; the warning names it *)
Theorem C122_warned_partial : forall fs root share c name, short share -> match root with Some r => short r | None => True end -> length name < 234 ->
  exists w r, load_all fs root share = Ok w /\ check c w false name = Ok r /\
    (r = None <-> known c name \/ In name (listed fs root share)) /\
    (forall m h, r = Some (m, h) -> m = bs "Undefined function '" ++ name ++ bs "'").
Proof.
  intros fs root share c name Sh Ro Len. destruct (load_all_ok fs root share Sh Ro) as (w & E & H). destruct (whitelisted_ok w _ name H) as (b & Ew & B). exists w. unfold check. cbv zeta. rewrite Ew. cbn [bind].
  assert (I1 : existsb (fun b => b) (headers c) = true <-> In true (headers c)).
  { rewrite existsb_exists. split; [intros (x & I & ->); exact I|]. intros I. now exists true. }
  assert (I2 : existsb (contains (bs "/std/")) (imports c) = true <-> exists f, In f (imports c) /\ has_part (bs "/std/") f).
  { rewrite existsb_exists. split; intros (f & I & P); exists f; (split; [exact I|]); now apply contains_ok. }
  pose proof (one_of_ok (functions c) name) as F1. pose proof (one_of_ok (structs c) name) as F2. pose proof (one_of_ok (externs c) name) as F3.
  pose proof (starts_ok (bs "_z_") name) as S1. pose proof (starts_ok (bs "_Z") name) as S2.
  set (x1 := one_of (functions c) name) in *. set (x2 := one_of (structs c) name) in *. set (x3 := one_of (externs c) name) in *. set (x4 := existsb (fun b => b) (headers c)) in *.
  set (x5 := existsb (contains (bs "/std/")) (imports c)) in *. set (x6 := starts (bs "_z_") name) in *. set (x7 := starts (bs "_Z") name) in *.
  assert (K : known c name \/ In name (listed fs root share) <-> x1 || x2 || x3 || x4 || x5 || x6 || x7 || b = true).
  { unfold known. rewrite !orb_true_iff, F1, F2, F3, I1, I2, S1, S2, B. tauto. }
  assert (T : firstn 255 (bs "Undefined function '" ++ name ++ bs "'") = bs "Undefined function '" ++ name ++ bs "'").
  { apply firstn_all2. rewrite !app_length. change (length (bs "Undefined function '")) with 20. change (length (bs "'")) with 1. lia. }
  rewrite T. clear F1 F2 F3 I1 I2 S1 S2 B Ew T. clearbody x1 x2 x3 x4 x5 x6 x7.
  destruct x1, x2, x3, x4, x5, x6, x7, b; cbn [orb andb negb] in *; eexists; (split; [exact E|]); (split; [reflexivity|]); (split; [rewrite K; split; (reflexivity || discriminate)|]); intros m h; try discriminate; intros [= <- <-]; reflexivity.
Qed.
Print Assumptions C122_warned_partial.
Definition some_files (p : bytes) : config_file :=
  if beq_bytes p (bs "/zc/zenc.json") then Some (Some [Str (bs "puts"); Other; Str (bs "exit")])
  else if beq_bytes p (bs "/usr/zenc.json") then Some (Some [Str (bs "gone")])
  else if beq_bytes p (bs "zenc.json") then Some (Some [Str (bs "mine")]) else None.
Definition program : ctx := Ctx [bs "main"] [bs "Point"] [false] [bs "lib/a.zc"] [bs "ext"].
Example C122_witness :
  short (bs "/usr") /\ short (bs "/zc") /\ listed some_files (Some (bs "/zc")) (bs "/usr") = [bs "puts"; bs "exit"; bs "mine"] /\
  exists w, load_all some_files (Some (bs "/zc")) (bs "/usr") = Ok w /\ check program w false (bs "mine") = Ok None /\ check program w false (bs "main") = Ok None /\
    check program w false (bs "gone") = Ok (Some (bs "Undefined function 'gone'", None)) /\
    check program w false (bs "free") = Ok (Some (bs "Undefined function 'free'", Some (bs "Include <stdlib.h> or use 'use std::mem'"))).
Proof. unfold short. splits; [cbn; lia|cbn; lia|reflexivity|]. eexists. splits; reflexivity. Qed.

(** C122: the list is that of the files in their order, ended by a null, whatever the files hold *)
Theorem C122_list : forall fs root share, short share -> match root with Some r => short r | None => True end ->
  (load_all fs root share = Ok None /\ listed fs root share = []) \/
  exists b rest, load_all fs root share = Ok (Some b) /\ b = map (fun s => Some (Some s)) (listed fs root share) ++ Some None :: rest.
Proof.
  intros fs root share Sh Ro. destruct (load_all_ok fs root share Sh Ro) as (w & E & H). destruct w as [b|]; cbn [holds] in H; [right|left; now split]. destruct H as [z ->]. exists (map (fun s => Some (Some s)) (listed fs root share) ++ Some None :: z), z. now split.
Qed.
Print Assumptions C122_list.
(** C122: the hint is that of the header of the function, and given exactly for those known *)
Theorem C122_hint : forall c name m h w, check c w false name = Ok (Some (m, h)) ->
  (forall l t, In (l, t) headers_of -> In name l -> h = Some t) /\ (h <> None -> exists l t, In (l, t) headers_of /\ In name l).
Proof.
  intros c name m h w E. unfold check in E. destruct (_ || _) in E; [discriminate|]. cbv zeta in E. destruct (whitelisted w name) as [b| | |]; try discriminate. cbn [bind] in E.
  destruct (negb _ && _ && _ && _) in E; [|discriminate]. injection E as _ <-. split.
  - intros l t I N. unfold headers_of in I. cbn [In] in I. destruct I as [I|[I|[I|[]]]]; injection I as <- <-; cbn [In] in N;
      repeat (destruct N as [<-|N]; [reflexivity|]); destruct N.
  - unfold hint. intros N.
    destruct (one_of [bs "malloc"; bs "free"; bs "calloc"; bs "realloc"] name) eqn:H1; [apply one_of_ok in H1; eexists _, _; split; [left; reflexivity|exact H1]|].
    destruct (one_of [bs "printf"; bs "scanf"; bs "fprintf"; bs "sprintf"; bs "snprintf"] name) eqn:H2; [apply one_of_ok in H2; eexists _, _; split; [right; left; reflexivity|exact H2]|].
    destruct (one_of [bs "memset"; bs "memcpy"; bs "strlen"; bs "strcpy"; bs "strcmp"; bs "strncmp"] name) eqn:H3; [apply one_of_ok in H3; eexists _, _; split; [right; right; left; reflexivity|exact H3]|]. now destruct N.
Qed.
Print Assumptions C122_hint.

(** C122, refuted: a call that names its arguments is not checked; the import of any file with /std/ in its path hides
    every undefined function *)
Theorem C122_named_refuted : forall c w name, check c w true name = Ok None.
Proof. reflexivity. Qed.
Print Assumptions C122_named_refuted.
Theorem C122_std_refuted : forall fs root share c name, short share -> match root with Some r => short r | None => True end -> In (bs "/home/me/std/vec.zc") (imports c) ->
  exists w, load_all fs root share = Ok w /\ check c w false name = Ok None.
Proof.
  intros fs root share c name Sh Ro I. destruct (load_all_ok fs root share Sh Ro) as (w & E & H). exists w. split; [exact E|]. destruct (whitelisted_ok w _ name H) as (b & Ew & _). unfold check. cbv zeta.
  destruct (_ || _); [reflexivity|]. rewrite Ew. cbn [bind].
  assert (X : existsb (contains (bs "/std/")) (imports c) = true) by (apply existsb_exists; exists (bs "/home/me/std/vec.zc"); split; [exact I|reflexivity]). rewrite X, orb_true_r. reflexivity.
Qed.
Print Assumptions C122_std_refuted.
(** C122, refuted: with a long ZC_ROOT another file is read *)
Theorem C122_long_refuted : forall fs r share, 1023 <= length r -> short share -> fs (firstn 1023 r) = None -> fs (bs ".zenc.json") = None -> fs (bs "zenc.json") = None ->
  exists w, load_all fs (Some r) share = Ok w /\ holds w (names (fs (share ++ bs "/zenc.json"))).
Proof.
  intros fs r share L Sh F1 F2 F3. unfold load_all. assert (D : in_dir r = firstn 1023 r) by (unfold in_dir; rewrite firstn_app; replace (1023 - length r) with 0 by lia; cbn [firstn]; apply app_nil_r).
  rewrite D. unfold load at 1. rewrite F1. cbn [bind]. rewrite (in_dir_ok share Sh). destruct (load_ok fs (share ++ bs "/zenc.json") None []) as (w & E & H); [reflexivity|]. rewrite E. cbn [bind].
  unfold load at 1. rewrite F2. cbn [bind]. unfold load at 1. rewrite F3. cbn [bind]. exists w. now split.
Qed.
Print Assumptions C122_long_refuted.
