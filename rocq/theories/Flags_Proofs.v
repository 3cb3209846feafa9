From Verif Require Import Common Flags_Model Flags_Spec.
Local Open Scope nat_scope.

Definition enc (v : bytes) : bytes := if has_space v then 34%N :: v ++ [34%N] else v.
(** An argument with unquoted part [p] and value [v] *)
Definition tok (pv : bytes * bytes) : bytes := fst pv ++ enc (snd pv).
Definition tok_ok (pv : bytes * bytes) : Prop :=
  fst pv ++ snd pv <> [] /\ clean (fst pv) /\ ~ has_blank (fst pv) /\ clean (snd pv) /\ length (fst pv ++ snd pv) <= 4095.

Lemma has_space_spec v : has_space v = true <-> has_blank v.
Proof.
  unfold has_space, has_blank. rewrite existsb_exists. split.
  - intros (x & I & E). apply N.eqb_eq in E. now subst.
  - intros I. exists 32%N. auto.
Qed.
Lemma has_space_false v : has_space v = false <-> ~ has_blank v.
Proof. rewrite <- has_space_spec. destruct (has_space v); split; congruence. Qed.
Lemma isspace_spec c : isspace c = true <-> white c \/ c = 32%N.
Proof.
  unfold isspace, white. cbn [In]. rewrite orb_true_iff, andb_true_iff, !N.leb_le, N.eqb_eq. lia.
Qed.
Lemma clean_space c v : clean (c :: v) -> ~ has_blank (c :: v) -> isspace c = false.
Proof.
  intros C B. inversion C as [|? ? [_ W] _]; subst. destruct (isspace c) eqn:E; [|reflexivity].
  apply isspace_spec in E. destruct E as [E| ->]; [contradiction|]. exfalso. apply B. now left.
Qed.

Lemma read_plain p : forall room r, clean p -> ~ has_blank p -> length p <= room ->
  read_arg false room (p ++ r) = let '(a, q) := read_arg false (room - length p) r in (p ++ a, q).
Proof.
  induction p as [|c p IH]; intros room r C B L; cbn [app length].
  - rewrite Nat.sub_0_r. now destruct (read_arg false room r).
  - cbn [read_arg]. rewrite (clean_space c p C B). cbn [negb orb]. inversion C as [|? ? [Q _] C']; subst.
    destruct (N.eqb_spec c 34); [contradiction|]. cbn [length] in L. destruct room as [|room]; [lia|].
    rewrite IH; [|assumption| |lia].
    + cbn [Nat.sub]. now destruct (read_arg false (room - length p) r).
    + intros X. apply B. now right.
Qed.
Lemma read_quoted v : forall room r, clean v -> length v <= room ->
  read_arg true room (v ++ 34%N :: r) = let '(a, q) := read_arg false (room - length v) r in (v ++ a, q).
Proof.
  induction v as [|c v IH]; intros room r C L; cbn [app length].
  - cbn [read_arg orb]. rewrite N.eqb_refl. rewrite Nat.sub_0_r. cbn [negb]. now destruct (read_arg false room r).
  - cbn [read_arg orb]. inversion C as [|? ? [Q _] C']; subst.
    destruct (N.eqb_spec c 34); [contradiction|]. cbn [length] in L. destruct room as [|room]; [lia|].
    rewrite IH; [|assumption|lia]. cbn [Nat.sub]. now destruct (read_arg false (room - length v) r).
Qed.
Definition sep (r : bytes) : Prop := r = [] \/ exists t, r = 32%N :: t.
Lemma read_sep room r : sep r -> read_arg false room r = ([], r).
Proof. intros [->|(t & ->)]; reflexivity. Qed.
Lemma read_tok pv r : tok_ok pv -> sep r -> read_arg false 4095 (tok pv ++ r) = (fst pv ++ snd pv, r).
Proof.
  destruct pv as [p v]. unfold tok, tok_ok. cbn [fst snd]. intros (NE & Cp & Bp & Cv & L) S. rewrite app_length in L.
  rewrite <- app_assoc. rewrite read_plain by (auto; lia). unfold enc. destruct (has_space v) eqn:E.
  - cbn [app]. cbn [read_arg]. cbn [isspace negb orb N.leb N.compare andb N.eqb Pos.eqb].
    change (isspace 34) with false. cbn [negb orb]. rewrite <- app_assoc. cbn [app]. rewrite read_quoted by (auto; lia).
    rewrite read_sep by assumption. now rewrite app_nil_r.
  - apply has_space_false in E. rewrite read_plain by (auto; lia). rewrite read_sep by assumption. now rewrite app_nil_r.
Qed.
Lemma tok_head pv : tok_ok pv -> exists c t, tok pv = c :: t /\ isspace c = false.
Proof.
  destruct pv as [[|c p] v]; unfold tok, tok_ok; cbn [fst snd app]; intros (NE & Cp & Bp & Cv & L).
  - unfold enc. destruct (has_space v) eqn:E; [exists 34%N; eexists; split; reflexivity|].
    destruct v as [|c v]; [congruence|]. exists c, v. split; [reflexivity|]. eapply clean_space; [exact Cv|]. now apply has_space_false.
  - eexists _, _. split; [reflexivity|]. eapply clean_space; eassumption.
Qed.

Definition seps (ts : list (bytes * bytes)) : bytes := flat_map (fun t => 32%N :: tok t) ts.
Lemma seps_sep ts : sep (seps ts).
Proof. destruct ts; [now left|right; eexists; reflexivity]. Qed.
Lemma split_seps ts : forall fuel, Forall tok_ok ts -> length ts < fuel ->
  split_loop fuel (seps ts) = Ok (map (fun pv => fst pv ++ snd pv) ts).
Proof.
  induction ts as [|pv ts IH]; intros fuel F L; (destruct fuel as [|fuel]; [cbn in L; lia|]); [reflexivity|].
  inversion F as [|? ? OK F']; subst. cbn [length] in L. unfold seps. cbn [flat_map map]. fold (seps ts). cbn [app split_loop].
  cbn [skip_space]. change (isspace 32) with true. cbv iota.
  destruct (tok_head pv OK) as (c & t & E & S). pose proof (read_tok pv (seps ts) OK (seps_sep ts)) as R.
  rewrite E in *. cbn [app] in *. cbn [skip_space]. rewrite S. rewrite R. rewrite IH by (auto; lia). reflexivity.
Qed.
(** A buffer that holds a list of arguments *)
Definition joined (ts : list (bytes * bytes)) : bytes := match ts with [] => [] | t :: r => tok t ++ seps r end.
Lemma split_joined ts : Forall tok_ok ts -> arg_list_add_from_string (joined ts) = Ok (map (fun pv => fst pv ++ snd pv) ts).
Proof.
  intros F. unfold arg_list_add_from_string. destruct ts as [|pv ts]; [reflexivity|]. inversion F as [|? ? OK F']; subst.
  cbn [joined map].
  assert (K : length ts <= length (seps ts)).
  { clear. induction ts as [|t ts IH]; [cbn; lia|]. unfold seps. cbn [flat_map app length]. fold (seps ts). rewrite app_length. lia. }
  destruct (tok_head pv OK) as (c & t & E & S). pose proof (read_tok pv (seps ts) OK (seps_sep ts)) as R.
  cbn [split_loop]. rewrite E in *. cbn [app] in *. cbn [skip_space]. rewrite S. rewrite R.
  rewrite split_seps; [reflexivity|assumption|]. cbn [length]. rewrite app_length. lia.
Qed.
Lemma joined_snoc ts t : joined (ts ++ [t]) = match ts with [] => tok t | _ => joined ts ++ 32%N :: tok t end.
Proof.
  destruct ts as [|x ts]; cbn [app joined].
  - unfold seps. cbn. now rewrite app_nil_r.
  - unfold seps. rewrite flat_map_app. cbn [flat_map]. rewrite app_nil_r. now rewrite app_assoc.
Qed.
Lemma joined_nil ts : Forall tok_ok ts -> joined ts = [] -> ts = [].
Proof.
  intros F E. destruct ts as [|t ts]; [reflexivity|]. exfalso. inversion F as [|? ? OK _]; subst.
  destruct (tok_head t OK) as (c & r & E' & _). cbn [joined] in E. rewrite E' in E. discriminate.
Qed.
Definition tcost (t : bytes * bytes) : nat := length (fst t) + cost (snd t).
Lemma tok_len t : length (tok t) = tcost t.
Proof.
  unfold tok, enc, tcost, cost. rewrite app_length. destruct (in_dec N.eq_dec 32%N (snd t)) as [I|I].
  - apply has_space_spec in I. rewrite I. cbn [length]. rewrite app_length. cbn. lia.
  - apply has_space_false in I. rewrite I. lia.
Qed.
Lemma joined_len ts : length (joined ts) + (if length ts =? 0 then 0 else 1) = needs (map tcost ts).
Proof.
  destruct ts as [|t ts]; [reflexivity|]. cbn [joined map needs fold_right length Nat.eqb]. rewrite app_length, tok_len.
  enough (length (seps ts) = needs (map tcost ts)) by (unfold needs in *; lia).
  induction ts as [|x ts IH]; [reflexivity|]. unfold seps. cbn [flat_map map needs fold_right app length]. fold (seps ts). rewrite app_length, tok_len.
  unfold needs in *. lia.
Qed.
Lemma needs_app a b : needs (a ++ b) = needs a + needs b.
Proof. unfold needs. induction a as [|x a IH]; cbn [app fold_right]; [reflexivity|]. lia. Qed.

Lemma append_joined ts f max : Forall tok_ok ts -> flag_ok f -> needs (map tcost ts) + cost f + 1 <= max ->
  append_flag (joined ts) max f = joined (ts ++ [([], f)]).
Proof.
  intros F (NE & C & L) N. unfold append_flag. pose proof (joined_len ts) as JL.
  assert (Q : (if has_space f then 34%N :: f ++ [34%N] else f) = tok ([], f)) by (unfold tok, enc; cbn [fst snd app]; reflexivity).
  rewrite Q. pose proof (tok_len ([], f)) as TL. unfold tcost in TL. cbn [fst snd length] in TL.
  assert (RQ : length f + (if has_space f then 2 else 0) = cost f).
  { unfold cost. destruct (in_dec N.eq_dec 32%N f) as [I|I]; [apply has_space_spec in I|apply has_space_false in I]; now rewrite I. }
  rewrite RQ. rewrite joined_snoc.
  assert (Z : (0 <? length (joined ts)) = negb (length ts =? 0)).
  { destruct ts as [|t ts]; [reflexivity|]. cbn [length Nat.eqb negb]. apply Nat.ltb_lt.
    destruct (joined (t :: ts)) eqn:E; [|cbn; lia]. apply joined_nil in E; [discriminate|assumption]. }
  rewrite Z. destruct ts as [|t ts]; cbn [length Nat.eqb negb] in *.
  - cbn [joined length] in *. destruct (Nat.ltb_spec max (0 + (cost f + 0) + 1)); [unfold needs in N; cbn in N; lia|reflexivity].
  - destruct (Nat.ltb_spec max (length (joined (t :: ts)) + (cost f + 1) + 1)) as [X|_]; [|reflexivity]. exfalso. unfold bytes in *. lia.
Qed.
Lemma append_all fs : forall ts max, Forall tok_ok ts -> Forall flag_ok fs -> needs (map tcost ts ++ map cost fs) <= max ->
  fold_left (fun d f => append_flag d max f) fs (joined ts) = joined (ts ++ map (fun f => ([], f)) fs).
Proof.
  induction fs as [|f fs IH]; intros ts max F G N; cbn [fold_left map]; [now rewrite app_nil_r|].
  inversion G as [|? ? Gf G']; subst. rewrite needs_app in N. cbn [map] in N. unfold needs at 2 in N. cbn [fold_right] in N. fold (needs (map cost fs)) in N.
  rewrite append_joined by (auto; lia). rewrite IH; auto.
  - now rewrite <- app_assoc.
  - apply Forall_app. split; [assumption|]. constructor; [|constructor]. destruct Gf as (NE & C & L). unfold tok_ok. cbn [fst snd app].
    repeat split; auto. constructor.
  - rewrite map_app, needs_app, needs_app. cbn [map]. unfold needs at 2. cbn [fold_right]. unfold tcost at 2. cbn [fst snd length]. lia.
Qed.

(** main_append_flag *)
Lemma strncat_fits dest max cur src : (N.of_nat max < size_max)%N -> cur = length dest -> length dest + length src < max ->
  strncat dest max cur src = Ok (dest ++ src).
Proof.
  intros M -> L. unfold strncat.
  replace ((N.of_nat max + size_max - N.of_nat (length dest) - 1) mod size_max)%N with (N.of_nat (max - length dest - 1)).
  2: { replace (N.of_nat max + size_max - N.of_nat (length dest) - 1)%N with (N.of_nat (max - length dest - 1) + 1 * size_max)%N by lia.
       rewrite N.mod_add by (unfold size_max; discriminate). rewrite N.mod_small by lia. reflexivity. }
  rewrite N.min_r by lia. rewrite Nat2N.id. rewrite firstn_all. rewrite app_length.
  destruct (Nat.ltb_spec (length dest + length src) max); [reflexivity|lia].
Qed.
Lemma tok_last t : tok_ok t -> exists a c, tok t = a ++ [c] /\ c <> 32%N.
Proof.
  destruct t as [p v]. unfold tok, tok_ok. cbn [fst snd]. intros (NE & Cp & Bp & Cv & L). unfold enc. destruct (has_space v) eqn:E.
  - exists (p ++ 34%N :: v), 34%N. split; [now rewrite <- app_assoc|discriminate].
  - apply has_space_false in E. assert (B : ~ has_blank (p ++ v)) by (intros X; apply in_app_or in X; tauto).
    destruct (exists_last NE) as (a & c & EE). exists a, c. split; [assumption|]. intros ->. apply B. rewrite EE. apply in_or_app. right. now left.
Qed.
Lemma joined_last ts : Forall tok_ok ts -> ts <> [] -> exists a c, joined ts = a ++ [c] /\ c <> 32%N.
Proof.
  intros F N. destruct (exists_last N) as (us & t & ->). apply Forall_app in F. destruct F as [_ F]. inversion F as [|? ? OK _]; subst.
  destruct (tok_last t OK) as (a & c & E & NC). rewrite joined_snoc. destruct us as [|u us].
  - eauto.
  - exists (joined (u :: us) ++ 32%N :: a), c. rewrite E. split; [|assumption]. now rewrite <- app_assoc.
Qed.
Definition tok_of (pv : bytes * option bytes) : bytes * bytes := (fst pv, match snd pv with Some v => v | None => [] end).
Lemma tok_of_ok pv : cmdline_ok pv -> tok_ok (tok_of pv).
Proof.
  destruct pv as [p v]. intros (NE & C & B & L & V). unfold tok_ok, tok_of. cbn [fst snd]. splits; auto.
  - intros E. apply app_eq_nil in E. tauto.
  - destruct v; [assumption|constructor].
Qed.
Lemma main_joined ts pv max : (N.of_nat max < size_max)%N -> Forall tok_ok ts -> cmdline_ok pv ->
  needs (map tcost ts) + cmdline_cost pv + 1 <= max ->
  main_append_flag (joined ts) max (fst pv) (snd pv) = Ok (joined (ts ++ [tok_of pv])).
Proof.
  intros M F OK N. pose proof (joined_len ts) as JL. destruct pv as [p v]. unfold cmdline_cost in N; cbn [fst snd] in *.
  set (d1 := match ts with [] => [] | _ => joined ts ++ [32%N] end).
  assert (S1 : (if (0 <? length (joined ts)) && negb (N.eqb (nth (length (joined ts) - 1) (joined ts) 0%N) 32) then
              do d <- strncat (joined ts) max (length (joined ts)) [32%N]; Ok (d, length (joined ts) + 1)
            else Ok (joined ts, length (joined ts))) = Ok (d1, length d1)).
  { unfold d1. destruct ts as [|t ts]; [reflexivity|]. destruct (joined_last (t :: ts) F ltac:(discriminate)) as (a & c & E & NC). rewrite E in *.
    rewrite app_length. cbn [length]. replace (length a + 1 - 1) with (length a) by lia. rewrite nth_middle. 
    destruct (N.eqb_spec c 32); [contradiction|]. cbn [negb]. destruct (Nat.ltb_spec 0 (length a + 1)); [|lia]. cbn [andb].
    rewrite strncat_fits; [|assumption|rewrite app_length; reflexivity|].
    - cbn [bind]. rewrite !app_length. cbn [length]. reflexivity.
    - cbn [length Nat.eqb] in JL. rewrite app_length in *. cbn [length] in *. lia. }
  assert (L1 : length d1 = needs (map tcost ts)).
  { unfold d1. destruct ts as [|t ts]; [reflexivity|]. rewrite app_length. cbn [length Nat.eqb] in *. exact JL. }
  unfold main_append_flag. rewrite S1. cbn [bind]. cbv beta iota zeta. 
  assert (S2 : strncat d1 max (length d1) p = Ok (d1 ++ p)) by (apply strncat_fits; auto; lia).
  rewrite S2. cbn [bind].
  assert (J : joined (ts ++ [tok_of (p, v)]) = d1 ++ tok (tok_of (p, v))).
  { rewrite joined_snoc. unfold d1. destruct ts; [reflexivity|]. now rewrite <- app_assoc. }
  rewrite J. unfold tok, tok_of. cbn [fst snd].
  destruct v as [v|].
  2: { unfold enc. cbn [has_space existsb]. now rewrite app_nil_r. }
  unfold enc. destruct (has_space v) eqn:E.
  - assert (CO : cost v = length v + 2).
    { unfold cost. apply has_space_spec in E. destruct (in_dec N.eq_dec 32%N v); [lia|contradiction]. }
    rewrite strncat_fits; [|assumption|reflexivity|rewrite app_length; cbn; lia]. cbn [bind].
    rewrite strncat_fits; [|assumption|rewrite !app_length; cbn; lia|rewrite !app_length; cbn; lia]. cbn [bind].
    rewrite strncat_fits; [|assumption|reflexivity|rewrite !app_length; cbn; lia]. f_equal. rewrite <- !app_assoc. reflexivity.
  - assert (CO : cost v = length v).
    { unfold cost. apply has_space_false in E. destruct (in_dec N.eq_dec 32%N v); [contradiction|lia]. }
    cbn [bind]. rewrite strncat_fits; [|assumption|reflexivity|rewrite app_length; lia]. cbn [bind]. now rewrite <- app_assoc.
Qed.
Lemma main_all l : forall ts max, (N.of_nat max < size_max)%N -> Forall tok_ok ts -> Forall cmdline_ok l ->
  needs (map tcost ts ++ map cmdline_cost l) <= max ->
  main_flags (joined ts) max l = Ok (joined (ts ++ map tok_of l)).
Proof.
  induction l as [|[p v] l IH]; intros ts max M F G N; cbn [main_flags map]; [now rewrite app_nil_r|].
  inversion G as [|? ? Gf G']; subst. rewrite needs_app in N. cbn [map] in N. unfold needs at 2 in N. cbn [fold_right] in N. fold (needs (map cmdline_cost l)) in N.
  pose proof (main_joined ts (p, v) max M F Gf ltac:(lia)) as E. cbn [fst snd] in E. rewrite E. cbn [bind]. rewrite IH; auto.
  - now rewrite <- app_assoc.
  - apply Forall_app. split; [assumption|]. constructor; [|constructor]. now apply tok_of_ok.
  - rewrite map_app, needs_app, needs_app. cbn [map]. unfold needs at 2. cbn [fold_right]. unfold tcost at 2. unfold tok_of. cbn [fst snd].
    unfold cmdline_cost at 1 in N. cbn [fst snd] in N. destruct v as [v|]; [lia|]. unfold cost at 1. cbn [length in_dec]. 
    destruct (in_dec N.eq_dec 32%N []) as [[]|_]. lia.
Qed.

(** scan_build_directives *)
Lemma cut_line_app a r : ~ In 10%N a -> cut_line (a ++ 10%N :: r) = (a, r).
Proof.
  induction a as [|c a IH]; intros N; [reflexivity|]. cbn [app cut_line]. destruct (N.eqb_spec c 10) as [->|]; [exfalso; apply N; now left|].
  rewrite IH; [reflexivity|]. intros X. apply N. now right.
Qed.
Section D.
Variable getenv : bytes -> option bytes.
Variable os_active : bytes -> bool.
Variable first_line : bytes -> option bytes.
Notation run_line := (run_line getenv os_active first_line).
Notation scan_loop := (scan_loop getenv os_active first_line).
Notation scan := (scan_build_directives getenv os_active first_line).
Notation run_directive := (run_directive first_line).

Definition ev (line : bytes) : list event := if is_prefix (bs "//>") line then run_line (skip_sp (skipn 3 line)) else [].
Lemma scan_lines ls : forall fuel, Forall (fun l => ~ In 10%N l) ls -> length ls < fuel ->
  scan_loop fuel (flat_map (fun l => l ++ [10%N]) ls) = Ok (flat_map ev ls).
Proof.
  induction ls as [|l ls IH]; intros fuel F L; (destruct fuel as [|fuel]; [cbn in L; lia|]); [reflexivity|].
  inversion F as [|? ? Nl F']; subst. cbn [flat_map length] in *. rewrite <- app_assoc. cbn [app Flags_Model.scan_loop].
  rewrite cut_line_app by assumption. destruct (l ++ 10%N :: flat_map (fun l => l ++ [10%N]) ls) eqn:E; [destruct l; discriminate|].
  rewrite IH by (auto; lia). reflexivity.
Qed.
Lemma scan_ok ls : Forall (fun l => ~ In 10%N l) ls -> scan (flat_map (fun l => l ++ [10%N]) ls) = Ok (flat_map ev ls).
Proof.
  intros F. apply scan_lines; [assumption|]. enough (length ls <= length (flat_map (fun l => l ++ [10%N]) ls)) by lia.
  clear. induction ls as [|l ls IH]; [cbn; lia|]. cbn [flat_map length]. rewrite !app_length. cbn [length]. lia.
Qed.

(** safety of any source *)
Lemma safe_char_spec c : safe_char c = true -> shell_char c.
Proof.
  unfold safe_char, isalnum, shell_char. cbn [In]. rewrite !orb_true_iff, !andb_true_iff, !N.leb_le, !N.eqb_eq. lia.
Qed.
Lemma forall_firstn {A} (P : A -> Prop) n l : Forall P l -> Forall P (firstn n l).
Proof. intros F. rewrite <- (firstn_skipn n l) in F. now apply Forall_app in F. Qed.
Lemma run_directive_safe d c : In (EShell c) (run_directive d) -> harmless c.
Proof.
  unfold Flags_Model.run_directive. intros I.
  repeat match type of I with In _ (if is_prefix (bs ?x) d then [_] else _) => destruct (is_prefix (bs x) d); [destruct I as [I|[]]; discriminate|] end.
  destruct (is_prefix (bs "pkg-config:") d); [|destruct I as [I|[]]; discriminate].
  destruct (forallb safe_char (skipn 11 d)) eqn:F; [|destruct I as [I|[]]; discriminate].
  assert (SH : Forall shell_char (skipn 11 d)).
  { apply Forall_forall. intros x Ix. apply safe_char_spec. rewrite forallb_forall in F. auto. }
  cbv zeta in I. destruct I as [I|I].
  - assert (E : c = snprintf 4096 (bs "pkg-config --cflags " ++ skipn 11 d)) by congruence. subst c.
    unfold snprintf. rewrite firstn_app. exists (firstn (4096 - 1 - length (bs "pkg-config --cflags ")) (skipn 11 d)).
    split; [left; f_equal|apply forall_firstn; assumption].
  - apply in_app_or in I. destruct I as [I|I].
    { destruct (first_line _); [destruct I as [I|[]]; discriminate|destruct I]. }
    destruct I as [I|I].
    + assert (E : c = snprintf 4096 (bs "pkg-config --libs " ++ skipn 11 d)) by congruence. subst c.
      unfold snprintf. rewrite firstn_app. exists (firstn (4096 - 1 - length (bs "pkg-config --libs ")) (skipn 11 d)).
      split; [right; f_equal|apply forall_firstn; assumption].
    + destruct (first_line _); [destruct I as [I|[]]; discriminate|destruct I].
Qed.
Lemma run_line_safe s c : In (EShell c) (run_line s) -> harmless c.
Proof.
  unfold Flags_Model.run_line. cbv zeta. destruct (index_of _ _); [|apply run_directive_safe].
  destruct (os_name _); [|apply run_directive_safe]. destruct (os_active _); [apply run_directive_safe|intros []].
Qed.
Lemma cut_line_len s : length (snd (cut_line s)) <= length s /\ (s <> [] -> length (snd (cut_line s)) < length s).
Proof.
  induction s as [|c s [IH _]]; [split; [cbn; lia|congruence]|]. cbn [cut_line]. destruct (c =? 10)%N; [cbn [snd length]; lia|].
  destruct (cut_line s) as [a b]. cbn [snd length] in *. lia.
Qed.
Lemma scan_any fuel : forall s, length s < fuel -> exists l, scan_loop fuel s = Ok l /\ forall c, In (EShell c) l -> harmless c.
Proof.
  induction fuel as [|fuel IH]; intros s L; [lia|]. cbn [Flags_Model.scan_loop]. destruct s as [|x s]; [exists []; split; [reflexivity|intros c []]|].
  destruct (cut_line_len (x :: s)) as [_ CL]. specialize (CL ltac:(discriminate)). destruct (cut_line (x :: s)) as [line rest]. cbn [snd] in CL.
  destruct (IH rest ltac:(lia)) as (l & E & H). rewrite E. cbn [bind]. eexists. split; [reflexivity|]. intros c I.
  apply in_app_or in I. destruct I as [I|I]; [|now apply H].
  destruct (is_prefix _ _); [now apply run_line_safe in I|destruct I].
Qed.

(** well-formed directives *)
Lemma expand_id s : forall fuel rem, ~ In 36%N s -> length s < fuel -> length s <= rem -> expand_env_vars getenv fuel rem s = s.
Proof.
  induction s as [|c s IH]; intros fuel rem N F R; (destruct fuel as [|fuel]; [lia|]); cbn [expand_env_vars]; [now destruct rem|].
  cbn [length] in *. destruct rem as [|rem]; [lia|].
  assert (P : is_prefix [36; 123]%N (c :: s) = false).
  { cbn [is_prefix]. destruct (N.eqb_spec 36 c) as [<-|]; [exfalso; apply N; now left|reflexivity]. }
  rewrite P. rewrite IH; [reflexivity| |lia|lia]. intros X. apply N. now right.
Qed.
Lemma no_cr (v w : bytes) : clean (w ++ v) ->
  match rev (w ++ v) with c :: t => if (c =? 13)%N then rev t else w ++ v | [] => w ++ v end = w ++ v.
Proof.
  intros C. destruct (rev (w ++ v)) as [|c t] eqn:E; [reflexivity|].
  destruct (N.eqb_spec c 13) as [->|]; [|reflexivity]. exfalso.
  assert (I : In 13%N (w ++ v)) by (apply in_rev; rewrite E; now left).
  unfold clean in C. rewrite Forall_forall in C. destruct (C _ I) as [_ W]. apply W. unfold white. cbn. auto 10.
Qed.
Lemma skip_sp_value v : value_ok v -> skip_sp v = v.
Proof.
  intros (_ & _ & _ & H & _). destruct v as [|c v]; [reflexivity|]. cbn [skip_sp]. destruct (N.eqb_spec c 32) as [->|]; [|reflexivity].
  exfalso. now apply (H v).
Qed.
Lemma value_clean v : value_ok v -> clean v.
Proof. now intros (_ & C & _). Qed.
Definition event_of (k : kind) (v : bytes) : event :=
  match k with
  | KLink => ELink v | KCflags => ECflag v | KInclude => ECflag (bs "-I" ++ v) | KLib => ELink (bs "-L" ++ v) | KDefine => ECflag (bs "-D" ++ v)
  end.
Lemma run_word k v : value_ok v -> run_directive (word k ++ v) = [event_of k v].
Proof.
  intros V. pose proof (skip_sp_value v V) as S. destruct V as (_ & _ & _ & _ & L).
  assert (SP : skip_sp (32%N :: v) = v) by exact S.
  destruct k; cbn [event_of].
  - transitivity [ELink (skip_sp (32%N :: v))]; [reflexivity|now rewrite SP].
  - transitivity [ECflag (skip_sp (32%N :: v))]; [reflexivity|now rewrite SP].
  - transitivity [ECflag (snprintf 2048 (bs "-I" ++ skip_sp (32%N :: v)))]; [reflexivity|].
    rewrite SP. unfold snprintf. rewrite firstn_all2; [reflexivity|rewrite app_length; change (length (bs "-I")) with 2; lia].
  - transitivity [ELink (snprintf 2048 (bs "-L" ++ skip_sp (32%N :: v)))]; [reflexivity|].
    rewrite SP. unfold snprintf. rewrite firstn_all2; [reflexivity|rewrite app_length; change (length (bs "-L")) with 2; lia].
  - transitivity [ECflag (snprintf 2048 (bs "-D" ++ skip_sp (32%N :: v)))]; [reflexivity|].
    rewrite SP. unfold snprintf. rewrite firstn_all2; [reflexivity|rewrite app_length; change (length (bs "-D")) with 2; lia].
Qed.
Lemma index_word k v : exists i, index_of 58 (word k ++ v) = Some i /\ os_name (firstn i (word k ++ v)) = false.
Proof. destruct k; cbn; eexists; split; reflexivity. Qed.
Lemma clean_word k : clean (word k).
Proof. unfold clean, white. destruct k; cbn; repeat constructor; try discriminate; cbn; intuition discriminate. Qed.
Lemma ev_line l : line_ok l ->
  ev (show_line l) = match l with Code _ => [] | Directive os k v => if applies os_active os then [event_of k v] else [] end.
Proof.
  intros OK. destruct l as [t|os k v].
  - destruct OK as [_ NP]. unfold ev. cbn [show_line]. destruct (is_prefix (bs "//>") t) eqn:E; [|reflexivity].
    exfalso. apply is_prefix_spec in E. now apply NP.
  - destruct OK as [V O].
    assert (W : exists w, show_line (Directive os k v) = bs "//> " ++ w ++ v /\ clean w /\ (exists c t, w = c :: t /\ c <> 32%N) /\ ~ In 36%N w /\ length w <= 40
                /\ w = match os with Some o => o ++ bs ": " ++ word k | None => word k end).
    { destruct os as [o|]; cbn [show_line].
      - exists (o ++ bs ": " ++ word k). rewrite <- !app_assoc. split; [reflexivity|].
        assert (CO : clean (o ++ bs ": ") /\ (exists c t, o = c :: t /\ c <> 32%N) /\ ~ In 36%N (o ++ bs ": ") /\ length o <= 10).
        { cbn [In] in O. destruct O as [<-|[<-|[<-|[<-|[]]]]]; (split; [unfold clean, white; cbn; repeat constructor; try discriminate; cbn; intuition discriminate|]);
            (split; [eexists _, _; split; [reflexivity|discriminate]|]); (split; [cbn; intuition discriminate|cbn; lia]). }
        destruct CO as (C1 & (c & t & -> & C2) & C3 & C4). splits; auto.
        + rewrite app_assoc. apply Forall_app. split; [assumption|apply clean_word].
        + exists c. eexists. split; [reflexivity|assumption].
        + rewrite app_assoc. intros X. apply in_app_or in X. destruct X as [X|X]; [tauto|]. destruct k; cbn in X; intuition discriminate.
        + rewrite !app_length. destruct k; cbn [length word] in *; cbn; lia.
      - exists (word k). splits; auto using clean_word.
        + destruct k; cbn; eexists _, _; (split; [reflexivity|discriminate]).
        + destruct k; cbn; intuition discriminate.
        + destruct k; cbn; lia. }
    destruct W as (w & -> & CW & (c & t & EW & NC) & DW & LW & FW).
    unfold ev. change (is_prefix (bs "//>") (bs "//> " ++ w ++ v)) with true. cbv iota.
    assert (SK : skip_sp (skipn 3 (bs "//> " ++ w ++ v)) = w ++ v).
    { rewrite EW. change (skipn 3 (bs "//> " ++ (c :: t) ++ v)) with (32%N :: c :: t ++ v). cbn [skip_sp N.eqb Pos.eqb]. destruct (N.eqb_spec c 32); [contradiction|reflexivity]. }
    rewrite SK. unfold Flags_Model.run_line. destruct V as (V1 & V2 & V3 & V4 & V5).
    rewrite (firstn_all2 (n := 2047)) by (rewrite app_length; lia). cbv zeta.
    rewrite no_cr by (apply Forall_app; split; assumption).
    rewrite expand_id; [|intros X; apply in_app_or in X; tauto|lia|rewrite app_length; lia].
    assert (V : value_ok v) by (repeat split; auto).
    clear EW SK. destruct os as [o|]; cbn [applies]; rewrite FW.
    +      assert (K : index_of 58 ((o ++ bs ": " ++ word k) ++ v) = Some (length o) /\ firstn (length o) ((o ++ bs ": " ++ word k) ++ v) = o
                  /\ skipn (length o + 1) ((o ++ bs ": " ++ word k) ++ v) = 32%N :: word k ++ v /\ os_name o = true).
      { cbn [In] in O. destruct O as [<-|[<-|[<-|[<-|[]]]]]; cbn; auto. }
      destruct K as (-> & -> & -> & ->). destruct (os_active o); [|reflexivity].
      replace (skip_sp (32%N :: word k ++ v)) with (word k ++ v) by (destruct k; reflexivity). now apply run_word.
    + destruct (index_word k v) as (i & -> & ->). now apply run_word.
Qed.
Lemma line_no_nl l : line_ok l -> ~ In 10%N (show_line l).
Proof.
  destruct l as [t|os k v]; [now intros [H _]|]. intros [(_ & C & _) O] I.
  assert (NV : ~ In 10%N v).
  { intros X. unfold clean in C. rewrite Forall_forall in C. destruct (C _ X) as [_ W]. apply W. unfold white. cbn. auto. }
  assert (NW : ~ In 10%N (word k)) by (destruct k; cbn; intuition discriminate).
  destruct os as [o|]; cbn [show_line] in I.
  - apply in_app_or in I. destruct I as [I|I]; [cbn in I; intuition discriminate|].
    apply in_app_or in I. destruct I as [I|I]; [cbn [In] in O; destruct O as [<-|[<-|[<-|[<-|[]]]]]; cbn in I; intuition discriminate|].
    apply in_app_or in I. destruct I as [I|I]; [cbn in I; intuition discriminate|].
    apply in_app_or in I. tauto.
  - apply in_app_or in I. destruct I as [I|I]; [cbn in I; intuition discriminate|]. apply in_app_or in I. tauto.
Qed.
Lemma scan_source ls : Forall line_ok ls ->
  scan (source ls) = Ok (flat_map (fun l => match l with Code _ => [] | Directive os k v => if applies os_active os then [event_of k v] else [] end) ls).
Proof.
  intros F. unfold source.
  replace (flat_map (fun l => show_line l ++ [10%N]) ls) with (flat_map (fun l => l ++ [10%N]) (map show_line ls)).
  2: { clear. induction ls as [|l ls IH]; [reflexivity|]. cbn [map flat_map]. now rewrite IH. }
  rewrite scan_ok.
  - f_equal. induction F as [|l ls OK F IH]; [reflexivity|]. cbn [map flat_map]. now rewrite IH, ev_line.
  - apply Forall_map. eapply Forall_impl; [|exact F]. intros l. apply line_no_nl.
Qed.
Definition events (ls : list sline) := flat_map (fun l => match l with Code _ => [] | Directive os k v => if applies os_active os then [event_of k v] else [] end) ls.
Lemma link_events ls : forall d, link_flags d (events ls) = fold_left (fun d f => append_flag d 1024 f) (link_args os_active ls) d.
Proof.
  unfold events, link_args. induction ls as [|[t|os k v] ls IH]; intros d; cbn [flat_map app]; [reflexivity|apply IH|].
  destruct (applies os_active os); [|apply IH]. destruct k; cbn [event_of app link_flags fold_left]; apply IH.
Qed.
Lemma c_events ls : forall d, c_flags d (events ls) = fold_left (fun d f => append_flag d 1024 f) (c_args os_active ls) d.
Proof.
  unfold events, c_args. induction ls as [|[t|os k v] ls IH]; intros d; cbn [flat_map app]; [reflexivity|apply IH|].
  destruct (applies os_active os); [|apply IH]. destruct k; cbn [event_of app c_flags fold_left]; apply IH.
Qed.
End D.
Lemma pre_flag p v : clean p -> value_ok v -> length p <= 2 -> flag_ok (p ++ v).
Proof.
  intros C (N & V & _ & _ & L) P. repeat split.
  - intros E. apply app_eq_nil in E. tauto.
  - apply Forall_app. now split.
  - rewrite app_length. lia.
Qed.
Ltac cl := unfold clean, white; cbn; repeat constructor; try discriminate; cbn; intuition discriminate.
Lemma link_args_ok here ls : Forall line_ok ls -> Forall flag_ok (link_args here ls).
Proof.
  induction 1 as [|[t|os k v] ls OK F IH]; [constructor|assumption|]. destruct OK as [V _]. unfold link_args. cbn [flat_map].
  apply Forall_app. split; [|exact IH]. destruct (applies here os); [|constructor].
  destruct k; first [apply Forall_nil | apply Forall_cons; [|apply Forall_nil]; first [apply (pre_flag [] v); [constructor|assumption|cbn; lia]|apply pre_flag; [cl|assumption|cbn; lia]]].
Qed.
Lemma c_args_ok here ls : Forall line_ok ls -> Forall flag_ok (c_args here ls).
Proof.
  induction 1 as [|[t|os k v] ls OK F IH]; [constructor|assumption|]. destruct OK as [V _]. unfold c_args. cbn [flat_map].
  apply Forall_app. split; [|exact IH]. destruct (applies here os); [|constructor].
  destruct k; first [apply Forall_nil | apply Forall_cons; [|apply Forall_nil]; first [apply (pre_flag [] v); [constructor|assumption|cbn; lia]|apply pre_flag; [cl|assumption|cbn; lia]]].
Qed.
Lemma map_tok_of l : map (fun pv => fst pv ++ snd pv) (map tok_of l) = map argument l.
Proof. rewrite map_map. apply map_ext. intros [p [v|]]; reflexivity. Qed.
Lemma map_tok_nil fs : map (fun pv : bytes * bytes => fst pv ++ snd pv) (map (fun f => ([], f)) fs) = fs.
Proof. rewrite map_map. cbn [fst snd app]. apply map_id. Qed.
Lemma toks_nil_ok fs : Forall flag_ok fs -> Forall tok_ok (map (fun f => ([], f)) fs).
Proof.
  intros F. apply Forall_map. eapply Forall_impl; [|exact F]. intros f (NE & C & L). unfold tok_ok. cbn [fst snd app].
  repeat split; auto. constructor.
Qed.
