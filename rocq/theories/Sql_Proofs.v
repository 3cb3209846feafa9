(** Proofs about Sql_Model. *)
From Verif Require Import Common Sql_Model Sql_Spec.
Local Open Scope nat_scope.

Lemma bind_Ok' {A B} (x : res A) (k : A -> res B) v : x = Ok v -> bind x k = k v.
Proof. now intros ->. Qed.
Lemma beq_neq a b : a <> b -> beq_bytes a b = false.
Proof. intros N. destruct (beq_bytes a b) eqn:E; [|reflexivity]. now apply beq_bytes_true in E. Qed.

(** * Characters *)
Lemma space_ok c : is_space c = true <-> blank c.
Proof.
  unfold is_space, blank. rewrite orb_true_iff, andb_true_iff, N.eqb_eq, !N.leb_le. lia.
Qed.
Lemma space_no c : ~ blank c -> is_space c = false.
Proof. intros H. destruct (is_space c) eqn:E; [|reflexivity]. now apply space_ok in E. Qed.
Lemma ident_ok c : ident c = true <-> name_char c.
Proof. unfold ident, name_char. rewrite !orb_true_iff, !andb_true_iff, N.eqb_eq, !N.leb_le. lia. Qed.
Lemma ident_no c : ~ name_char c -> ident c = false.
Proof. intros H. destruct (ident c) eqn:E; [|reflexivity]. now apply ident_ok in E. Qed.
Lemma lower_same x y : x = y \/ (capital y /\ x = y + 32)%N -> lower y = lower x.
Proof.
  unfold capital, lower. intros [->|[H ->]]; [reflexivity|].
  assert (E : ((65 <=? y) && (y <=? 90))%N = true) by (rewrite andb_true_iff, !N.leb_le; lia). rewrite E.
  assert (F : ((65 <=? y + 32) && (y + 32 <=? 90))%N = false) by (rewrite andb_false_iff, !N.leb_gt; lia). now rewrite F.
Qed.

(** where a name ends, and where blanks do *)
Definition stops (p : bytes) : Prop := match p with c :: _ => ~ name_char c | [] => True end.
Definition solid (p : bytes) : Prop := match p with c :: _ => ~ blank c /\ c <> 47%N | [] => True end.

Lemma line_end b p : ~ In 10%N b -> line (b ++ 10%N :: p) = 10%N :: p.
Proof.
  induction b as [|c b IH]; intros H; [reflexivity|]. cbn [app line]. destruct (N.eqb_spec c 10) as [->|_]; [exfalso; apply H; now left|].
  apply IH. intros I. apply H. now right.
Qed.
Lemma comment_end b p : (forall x y, b <> x ++ bs "*/" ++ y) -> comment (b ++ 42%N :: 47%N :: p) = p.
Proof.
  induction b as [|c b IH]; intros H; [reflexivity|].
  assert (H' : forall x y, b <> x ++ bs "*/" ++ y) by (intros x y ->; now apply (H (c :: x) y)).
  specialize (IH H'). destruct b as [|d b].
  - cbn [app comment]. destruct (c =? 42)%N; reflexivity.
  - change (comment ((c :: d :: b) ++ 42%N :: 47%N :: p)) with (if ((c =? 42) && (d =? 47))%N then b ++ 42%N :: 47%N :: p else comment ((d :: b) ++ 42%N :: 47%N :: p)).
    destruct ((c =? 42) && (d =? 47))%N eqn:E; [|exact IH]. apply andb_true_iff in E as [E1 E2]. apply N.eqb_eq in E1, E2. subst. exfalso. now apply (H [] b).
Qed.
Lemma skip_solid_f f p : solid p -> skip_f f p = p.
Proof.
  destruct f; [reflexivity|]. destruct p as [|c p]; [reflexivity|]. intros [A B]. cbn [skip_f]. rewrite (space_no _ A). apply N.eqb_neq in B. now rewrite B.
Qed.
Lemma skip_filler_f g p : filler g -> solid p -> forall f, length (g ++ p) < f -> skip_f f (g ++ p) = p.
Proof.
  intros F S. induction F as [|c g B _ IH|b g N _ IH|b g N _ IH]; intros f L.
  - now apply skip_solid_f.
  - destruct f as [|f]; [lia|]. cbn [app skip_f length] in *. apply space_ok in B. rewrite B. apply IH. lia.
  - rewrite <- !app_assoc in *. rewrite !app_length in L. change (length (bs "//")) with 2 in L. change (length [10%N]) with 1 in L. destruct f as [|f]; [lia|].
    change (skip_f (Datatypes.S f) (bs "//" ++ b ++ [10%N] ++ g ++ p)) with (skip_f f (line (b ++ 10%N :: g ++ p))). rewrite (line_end _ _ N).
    destruct f as [|f]; [lia|]. change (skip_f (Datatypes.S f) (10%N :: g ++ p)) with (skip_f f (g ++ p)). apply IH. rewrite app_length. lia.
  - rewrite <- !app_assoc in *. rewrite !app_length in L. change (length (bs "/*")) with 2 in L. change (length (bs "*/")) with 2 in L. destruct f as [|f]; [lia|].
    change (skip_f (Datatypes.S f) (bs "/*" ++ b ++ bs "*/" ++ g ++ p)) with (skip_f f (comment (b ++ 42%N :: 47%N :: g ++ p))). rewrite (comment_end _ _ N).
    apply IH. rewrite app_length. lia.
Qed.
Lemma skip_filler g p : filler g -> solid p -> skip (g ++ p) = p.
Proof. intros F S. unfold skip. apply skip_filler_f; auto. Qed.
Lemma skip_solid p : solid p -> skip p = p.
Proof. apply skip_solid_f. Qed.
Lemma skip_skip g p : filler g -> solid p -> skip (skip (g ++ p)) = p.
Proof. intros F S. rewrite skip_filler by assumption. now apply skip_solid. Qed.
Lemma filler_stops g p : filler g -> stops p -> stops (g ++ p).
Proof. intros F S. destruct F as [|c g B _|b g _ _|b g _ _]; [exact S|..]; cbn; unfold name_char; [unfold blank in B; lia|lia|lia]. Qed.
Lemma gap_stops g p : filler g -> g <> [] -> stops (g ++ p).
Proof. intros F N. destruct F as [|c g B _|b g _ _|b g _ _]; [easy|..]; cbn; unfold name_char; [unfold blank in B; lia|lia|lia]. Qed.
Lemma word_ok x p : Forall name_char x -> stops p -> word (x ++ p) = (x, p).
Proof.
  induction 1 as [|c x H _ IH]; intros S; cbn [app].
  - destruct p as [|c p]; [reflexivity|]. cbn [word]. now rewrite (ident_no _ S).
  - cbn [word]. apply ident_ok in H. now rewrite H, (IH S).
Qed.
Lemma match_ci_ok k' k p : same_letters k' k -> match_ci k (k' ++ p) = Some p.
Proof. induction 1 as [|x y k' k H _ IH]; [reflexivity|]. cbn [app match_ci]. now rewrite (lower_same _ _ H), N.eqb_refl. Qed.
Lemma kw_ok k' k p : same_letters k' k -> stops p -> match_kw k (k' ++ p) = Some p.
Proof. intros H S. unfold match_kw. rewrite (match_ci_ok _ _ _ H). destruct p as [|c p]; [reflexivity|]. now rewrite (ident_no _ S). Qed.
(** another keyword *)
Lemma match_ci_no k1' k1 k2 p : same_letters k1' k1 -> existsb (fun '(a, b) => negb (lower a =? lower b)%N) (combine k2 k1) = true -> match_ci k2 (k1' ++ p) = None.
Proof.
  intros H. revert k2. induction H as [|x y k1' k1 H _ IH]; intros k2 E; [destruct k2; discriminate|]. destruct k2 as [|a k2]; [discriminate|]. cbn [app match_ci].
  cbn [combine existsb] in E. rewrite (lower_same _ _ H) in E. destruct (lower a =? lower x)%N; [|reflexivity]. cbn [negb orb] in E. now apply IH.
Qed.
Lemma kw_no k1' k1 k2 p : same_letters k1' k1 -> existsb (fun '(a, b) => negb (lower a =? lower b)%N) (combine k2 k1) = true -> match_kw k2 (k1' ++ p) = None.
Proof. intros H E. unfold match_kw. now rewrite (match_ci_no _ _ _ _ H E). Qed.
Lemma letters_name k' k : same_letters k' k -> Forall capital k -> Forall name_char k'.
Proof. induction 1 as [|x y k' k H _ IH]; intros F; [constructor|]. inversion F; subst. constructor; [|auto]. unfold capital in *. unfold name_char. destruct H as [->|[? ->]]; lia. Qed.
Lemma solid_name x p : x <> [] -> Forall name_char x -> solid (x ++ p).
Proof. intros N F. destruct x as [|c x]; [easy|]. inversion F; subst. cbn. unfold name_char, blank in *. lia. Qed.
Lemma is_text_ok k' ty : same_letters k' (type_word ty) -> is_text k' = is_string ty.
Proof.
  intros H.
  assert (E : forall w, match_ci k' w = match_ci (type_word ty) w).
  { induction H as [|x y a b Hxy _ IH]; [reflexivity|]. intros [|d w]; [reflexivity|]. cbn [match_ci]. rewrite (lower_same _ _ Hxy). now rewrite IH. }
  assert (N : k' <> []) by (intros ->; destruct ty; inversion H). unfold is_text. rewrite !E. destruct k'; [easy|]. now destruct ty.
Qed.

Section Layout.
Variables (gap gap0 : bytes) (kw : bytes -> bytes).
Hypothesis L : layout gap gap0 kw.
Notation written := (written gap gap0 kw).
Notation separated := (separated gap0).
Notation value_text := (value_text gap0).

Lemma G1 : gap <> []. Proof. apply L. Qed.
Lemma G2 : filler gap. Proof. apply L. Qed.
Lemma G3 : filler gap0. Proof. apply L. Qed.
Lemma G4 k : same_letters (kw k) k. Proof. apply L. Qed.

Lemma solid_c c p : (~ blank c /\ c <> 47)%N -> solid (c :: p). Proof. easy. Qed.
Lemma not_blank c : (c =? 32)%N || ((9 <=? c) && (c <=? 13))%N = false -> ~ blank c.
Proof. intros H B. apply space_ok in B. unfold is_space in B. congruence. Qed.
Ltac solid_lit := first [apply solid_c; split; [apply not_blank; reflexivity|discriminate]].
Lemma not_name c : ident c = false -> ~ name_char c.
Proof. intros H B. apply ident_ok in B. congruence. Qed.
Ltac stops_lit := first [apply not_name; reflexivity].
Lemma kw_caps ty p : Forall name_char (kw (type_word ty)) /\ solid (kw (type_word ty) ++ p).
Proof.
  assert (F : Forall name_char (kw (type_word ty))).
  { apply (letters_name _ _ (G4 _)). destruct ty; repeat (constructor; [unfold capital; vm_compute; split; discriminate|]); constructor. }
  split; [exact F|]. apply solid_name; [|exact F]. pose proof (G4 (type_word ty)) as H. intros E. rewrite E in H. destruct ty; inversion H.
Qed.
Lemma kw_solid k p : k <> [] -> Forall capital k -> solid (kw k ++ p).
Proof. intros N C. pose proof (G4 k) as H. apply solid_name; [|exact (letters_name _ _ H C)]. intros E. rewrite E in H. inversion H. congruence. Qed.

Lemma head_filler g d q : filler g -> (d =? 41)%N = false -> exists e r, g ++ d :: q = e :: r /\ (e =? 41)%N = false.
Proof.
  intros G H. destruct G as [|c g B _|b g _ _|b g _ _]; [exists d; eexists; split; [reflexivity|exact H]|..]; (eexists; eexists; split; [reflexivity|]); [|reflexivity..].
  apply N.eqb_neq. unfold blank in B. lia.
Qed.
(** ** Columns *)
Definition col_text (c : bytes * ctype) : bytes := let '(n, ty) := c in n ++ gap ++ kw (type_word ty) ++ gap0.
Definition col_of (c : bytes * ctype) : column := (fst c, is_string (snd c)).
Lemma columns_step f n ty p acc : name 31 n -> stops p -> solid p ->
  columns (S f) (col_text (n, ty) ++ p) acc = columns f (comma p) (acc ++ [(n, is_string ty)]).
Proof.
  intros (N & F & B) St So. cbn [col_text]. rewrite <- !app_assoc.
  assert (E : exists c r, n ++ gap ++ kw (type_word ty) ++ gap0 ++ p = c :: r /\ (c =? 41)%N = false).
  { destruct n as [|c n]; [easy|]. inversion F; subst. exists c. eexists. split; [reflexivity|]. apply N.eqb_neq. unfold name_char in *. lia. }
  destruct E as (c & r & E & C). cbn [columns]. rewrite E, C, <- E. clear E C c r.
  rewrite skip_solid by now apply solid_name. rewrite (word_ok n); [|exact F|apply gap_stops; [apply G2|apply G1]].
  destruct n as [|c n]; [easy|]. assert (B1 : (32 <=? length (c :: n)) = false) by (apply Nat.leb_gt; lia). rewrite B1.
  destruct (kw_caps ty (gap0 ++ p)) as [F1 S1]. rewrite (skip_filler gap _ G2 S1). rewrite (word_ok _ _ F1) by (apply filler_stops; [apply G3|exact St]).
  rewrite (skip_filler gap0 p G3 So). now rewrite (is_text_ok _ _ (G4 _)).
Qed.
Lemma columns_all cols p : cols <> [] -> Forall (fun c => name 31 (fst c)) cols -> forall f acc, length cols < f ->
  columns f (separated (map col_text cols) ++ bs ")" ++ p) acc = Ok (acc ++ map col_of cols, bs ")" ++ p).
Proof.
  induction cols as [|[n ty] cols IH]; intros N F f acc Lf; [easy|]. inversion F as [|? ? Hn F']; subst. cbn [fst] in Hn. destruct f as [|f]; [lia|]. cbn [length] in Lf.
  destruct cols as [|[m ty2] cols].
  - change (separated (map col_text [(n, ty)])) with (col_text (n, ty)). rewrite columns_step; [|exact Hn|stops_lit|solid_lit].
    destruct f as [|f]; [cbn [length] in Lf; lia|]. reflexivity.
  - change (separated (map col_text ((n, ty) :: (m, ty2) :: cols))) with (col_text (n, ty) ++ bs "," ++ gap0 ++ separated (map col_text ((m, ty2) :: cols))).
    rewrite <- !app_assoc. rewrite columns_step; [|exact Hn|stops_lit|solid_lit].
    change (comma (bs "," ++ gap0 ++ separated (map col_text ((m, ty2) :: cols)) ++ bs ")" ++ p)) with (gap0 ++ separated (map col_text ((m, ty2) :: cols)) ++ bs ")" ++ p).
    assert (Sk : forall q a, solid q -> (match q with c :: _ => (c =? 41)%N = false | [] => False end) -> columns f (gap0 ++ q) a = columns f q a).
    { intros q a Sq H. destruct f as [|f']; [reflexivity|]. cbn [columns].
      destruct q as [|d q]; [easy|]. destruct (head_filler gap0 d q G3 H) as (e & r & E & He). rewrite E, He, H, <- E.
      now rewrite (skip_filler gap0 _ G3 Sq), (skip_solid _ Sq). }
    assert (Hm : name 31 m) by (inversion F'; assumption).
    assert (Head : exists c r, separated (map col_text ((m, ty2) :: cols)) ++ bs ")" ++ p = c :: r /\ name_char c).
    { destruct Hm as (Nm & Fm & _). destruct m as [|c m]; [easy|]. inversion Fm; subst. destruct cols as [|[m3 ty3] cols]; (exists c; eexists; split; [reflexivity|assumption]). }
    destruct Head as (c & r & E & Hc). rewrite Sk.
    + rewrite IH; [|discriminate|exact F'|cbn [length] in *; lia]. now rewrite <- app_assoc.
    + rewrite E. unfold solid, name_char, blank in *. lia.
    + rewrite E. apply N.eqb_neq. unfold name_char in Hc. lia.
Qed.

(** ** Values *)
Lemma quoted_ok s p : Forall (fun c => c <> 34 /\ c <> 92)%N s -> quoted (s ++ 34%N :: p) = Ok (s ++ [34%N], p).
Proof.
  induction 1 as [|c s [A B] _ IH]; [reflexivity|]. cbn [app quoted]. apply N.eqb_neq in A, B. now rewrite A, B, IH.
Qed.
Lemma plain_ok v p : Forall (fun c => c <> 44 /\ c <> 41)%N v -> (match p with c :: _ => ((c =? 44) || (c =? 41))%N = true | [] => True end) -> plain (v ++ p) = (v, p).
Proof.
  induction 1 as [|c v [A B] _ IH]; intros H; cbn [app].
  - destruct p as [|c p]; [reflexivity|]. cbn [plain]. now rewrite H.
  - cbn [plain]. apply N.eqb_neq in A, B. now rewrite A, B, (IH H).
Qed.
(** [q] is a comma or a parenthesis *)
Lemma one_value_ok v q p : value v -> ((q =? 44) || (q =? 41))%N = true ->
  exists p', one_value (value_text v ++ q :: p) = Ok (v, p') /\ skip p' = q :: p.
Proof.
  intros [(s & -> & F)|[H F]] Q; assert (Sq : solid (q :: p)) by (unfold solid, blank; apply orb_true_iff in Q; rewrite !N.eqb_eq in Q; lia).
  - exists (gap0 ++ q :: p). split; [|now apply skip_filler; [apply G3|]].
    change (value_text (bs """" ++ s ++ bs """")) with ((34%N :: s ++ [34%N]) ++ gap0). rewrite <- app_assoc. cbn [app one_value]. change (34 =? 34)%N with true. cbv iota.
    rewrite <- app_assoc. cbn [app]. now rewrite (quoted_ok s _ F).
  - exists (q :: p). split; [|now apply skip_solid]. destruct v as [|c v]; [easy|]. destruct H as (B & N1 & N2). apply N.eqb_neq in N1.
    unfold Sql_Spec.value_text, in_quotes. rewrite N1. cbn [app one_value]. rewrite N1. change (c :: v ++ q :: p) with ((c :: v) ++ q :: p). f_equal. now apply plain_ok.
Qed.
Lemma value_head v r : value v -> exists c t, value_text v ++ r = c :: t /\ ~ blank c /\ c <> 47%N /\ (c =? 41)%N = false.
Proof.
  intros [(s & -> & F)|[H F]].
  - exists 34%N. eexists. split; [reflexivity|]. splits; [apply not_blank; reflexivity|discriminate|reflexivity].
  - destruct v as [|c v]; [easy|]. destruct H as (B & N1 & N2). apply N.eqb_neq in N1. exists c. unfold Sql_Spec.value_text, in_quotes. rewrite N1. eexists. split; [reflexivity|].
    splits; auto. inversion F; subst. apply N.eqb_neq. tauto.
Qed.
Lemma values_all vs p : vs <> [] -> Forall value vs -> forall f acc, length vs < f ->
  values f (gap0 ++ separated (map value_text vs) ++ bs ")" ++ p) [] acc = Ok (acc ++ vs, bs ")" ++ p).
Proof.
  assert (Sk : forall f q a, solid q -> (match q with c :: _ => (c =? 41)%N = false | [] => False end) ->
    values (S f) (gap0 ++ q) [] a = bind (one_value q) (fun '(v, p) => match skip p with
           | c :: r => if (c =? 44)%N then values f r [] (a ++ [v]) else values f (c :: r) v a
           | [] => values f [] v a
           end)).
  { intros f q a Sq H. cbn [values]. destruct q as [|d q]; [easy|].
    destruct (head_filler gap0 d q G3 H) as (e & r & E & He). rewrite E, He, <- E. rewrite (skip_filler gap0 _ G3 Sq). reflexivity. }
  induction vs as [|v vs IH]; intros N F f acc Lf; [easy|]. inversion F as [|? ? Hv F']; subst. destruct f as [|f]; [lia|]. cbn [length] in Lf.
  destruct vs as [|w vs].
  - change (separated (map value_text [v])) with (value_text v). destruct (value_head v (bs ")" ++ p) Hv) as (c & t & E & A1 & A2 & A3). rewrite Sk; [|rewrite E; now split|now rewrite E].
    destruct (one_value_ok v 41 p Hv eq_refl) as (p' & O1 & O2). change (bs ")" ++ p) with (41%N :: p). rewrite O1. cbn [bind]. rewrite O2. change (41 =? 44)%N with false. cbv iota.
    destruct f as [|f]; [lia|]. reflexivity.
  - change (separated (map value_text (v :: w :: vs))) with (value_text v ++ bs "," ++ gap0 ++ separated (map value_text (w :: vs))). rewrite <- !app_assoc.
    set (rest := gap0 ++ separated (map value_text (w :: vs)) ++ bs ")" ++ p) in *.
    destruct (value_head v (bs "," ++ rest) Hv) as (c & t & E & A1 & A2 & A3). rewrite Sk; [|rewrite E; now split|now rewrite E].
    destruct (one_value_ok v 44 rest Hv eq_refl) as (p' & O1 & O2). change (bs "," ++ rest) with (44%N :: rest). rewrite O1. cbn [bind]. rewrite O2. change (44 =? 44)%N with true. cbv iota.
    unfold rest. rewrite IH; [|discriminate|exact F'|cbn [length] in *; lia]. now rewrite <- app_assoc.
Qed.

(** ** Statements *)
Definition comp (g : tables) (s : stmt) : option (cst * tables) :=
  match s with
  | Create t cols => Some (CCreate t (map col_of cols), (t, map col_of cols) :: g)
  | Insert t vs => Some (CInsert t vs, g)
  | Select t => match find t g with Some cols => Some (CSelect t cols, g) | None => None end
  end.
Lemma sep_length l : length l <= S (length (separated l)).
Proof.
  induction l as [|a [|b l] IH]; [cbn; lia|cbn [length Sql_Spec.separated]; lia|].
  change (separated (a :: b :: l)) with (a ++ bs "," ++ gap0 ++ separated (b :: l)). rewrite !app_length. change (length (bs ",")) with 1. cbn [length] in *. lia.
Qed.
Ltac caps := repeat (constructor; [unfold capital; vm_compute; split; discriminate|]); constructor.
Lemma name_len t : name 63 t -> (64 <=? length t) = false.
Proof. intros (_ & _ & B). apply Nat.leb_gt. lia. Qed.
Lemma create_ok g t cols p : good (Create t cols) ->
  create g (gap ++ t ++ gap0 ++ bs "(" ++ gap0 ++ separated (map col_text cols) ++ bs ")" ++ gap0 ++ bs ";" ++ p) = Ok (CCreate t (map col_of cols), (t, map col_of cols) :: g, p).
Proof.
  intros (Nt & Nc & _ & Fc). pose proof (name_len _ Nt) as B. destruct Nt as (N & F & _). unfold create.
  rewrite skip_filler; [|apply G2|now apply solid_name]. rewrite word_ok; [|exact F|apply filler_stops; [apply G3|stops_lit]]. rewrite B.
  rewrite skip_filler; [|apply G3|solid_lit]. change (bs "(" ++ ?x) with (40%N :: x). cbv iota beta. change (40 =? 40)%N with true. cbv iota.
  match goal with |- context [columns ?f (skip (gap0 ++ ?q)) []] => set (fuel := f); assert (Hs : solid q) end.
  { destruct cols as [|[n ty] cols]; [easy|]. inversion Fc as [|? ? (Nn & Fn & _) _]; subst. cbn [fst] in *. destruct n as [|c n]; [easy|]. inversion Fn; subst.
    destruct cols; cbn; unfold name_char, blank in *; lia. }
  rewrite skip_filler; [|apply G3|exact Hs].
  erewrite bind_Ok'; [|apply columns_all; [exact Nc|exact Fc|]].
  - cbv iota beta. change ([] ++ map col_of cols) with (map col_of cols). change (closing (bs ")" ++ ?x)) with x. rewrite skip_filler; [reflexivity|apply G3|solid_lit].
  - unfold fuel. rewrite !app_length. pose proof (sep_length (map col_text cols)) as Sl. rewrite map_length in Sl. change (length (bs ")")) with 1. lia.
Qed.
Lemma insert_ok t vs p : good (Insert t vs) ->
  insert (gap ++ kw (bs "INTO") ++ gap ++ t ++ gap ++ kw (bs "VALUES") ++ gap0 ++ bs "(" ++ gap0 ++ separated (map value_text vs) ++ bs ")" ++ gap0 ++ bs ";" ++ p) = Ok (CInsert t vs, p).
Proof.
  intros (Nt & Nv & Fv). pose proof (name_len _ Nt) as B. destruct Nt as (N & F & _). unfold insert. cbv zeta.
  rewrite skip_filler; [|apply G2|apply kw_solid; [discriminate|caps]]. rewrite (kw_ok _ _ _ (G4 (bs "INTO"))) by (apply gap_stops; [apply G2|apply G1]).
  rewrite skip_filler; [|apply G2|now apply solid_name]. rewrite word_ok; [|exact F|apply gap_stops; [apply G2|apply G1]]. rewrite B.
  rewrite skip_filler; [|apply G2|apply kw_solid; [discriminate|caps]]. rewrite (kw_ok _ _ _ (G4 (bs "VALUES"))) by (apply filler_stops; [apply G3|stops_lit]).
  rewrite skip_filler; [|apply G3|solid_lit]. change (opening (bs "(" ++ ?x)) with x.
  erewrite bind_Ok'; [|apply values_all; [exact Nv|exact Fv|]].
  - cbv iota beta. change ([] ++ vs) with vs. change (closing (bs ")" ++ ?x)) with x. rewrite skip_filler; [reflexivity|apply G3|solid_lit].
  - rewrite !app_length. pose proof (sep_length (map value_text vs)) as Sl. rewrite map_length in Sl. change (length (bs ")")) with 1. lia.
Qed.
Lemma select_ok g t cols p : good (Select t) -> find t g = Some cols ->
  select g (gap ++ bs "*" ++ gap ++ kw (bs "FROM") ++ gap ++ t ++ gap0 ++ bs ";" ++ p) = Ok (CSelect t cols, p).
Proof.
  intros Nt Fd. pose proof (name_len _ Nt) as B. destruct Nt as (N & F & _). unfold select. cbv zeta.
  rewrite skip_filler; [|apply G2|solid_lit].
  assert (K : forall q, stops q -> match_kw (bs "*") (bs "*" ++ q) = Some q) by (intros q; apply kw_ok; repeat constructor; now left). rewrite K by (apply gap_stops; [apply G2|apply G1]).
  rewrite skip_filler; [|apply G2|apply kw_solid; [discriminate|caps]]. rewrite (kw_ok _ _ _ (G4 (bs "FROM"))) by (apply gap_stops; [apply G2|apply G1]).
  rewrite skip_filler; [|apply G2|now apply solid_name]. rewrite word_ok; [|exact F|apply filler_stops; [apply G3|stops_lit]]. rewrite B, Fd.
  rewrite skip_filler; [reflexivity|apply G3|solid_lit].
Qed.
Lemma top_go f g g0 q : filler g0 -> solid q -> q <> [] -> top (S f) g (g0 ++ q) =
  match match_kw (bs "CREATE") q with
  | Some p => bind (create g (match match_kw (bs "TABLE") (skip p) with Some p => p | None => skip p end)) (fun '(s, g, p) => bind (top f g p) (fun '(l, g) => Ok (s :: l, g)))
  | None =>
    match match_kw (bs "INSERT") q with
    | Some p => bind (insert p) (fun '(s, p) => bind (top f g p) (fun '(l, g) => Ok (s :: l, g)))
    | None =>
      match match_kw (bs "SELECT") q with
      | Some p => bind (select g p) (fun '(s, p) => bind (top f g p) (fun '(l, g) => Ok (s :: l, g)))
      | None => top f g (tl q)
      end
    end
  end.
Proof. intros F S N. cbn [top]. rewrite (skip_filler g0 q F S). destruct q; [easy|]. reflexivity. Qed.
Lemma kw_some k q : k <> [] -> kw k ++ q <> [].
Proof. intros N E. pose proof (G4 k) as H. destruct (kw k); [|discriminate]. inversion H. congruence. Qed.
Lemma top_step f g g0 s c g' p : filler g0 -> good s -> comp g s = Some (c, g') ->
  top (S f) g (g0 ++ written s ++ p) = bind (top f g' p) (fun '(l, g) => Ok (c :: l, g)).
Proof.
  intros Fg Gs C. destruct s as [t cols|t vs|t]; cbn [comp] in C.
  - injection C as <- <-.
    match goal with |- top _ _ (g0 ++ ?w ++ p) = _ => replace (w ++ p) with (kw (bs "CREATE") ++ gap ++ kw (bs "TABLE") ++ gap ++ t ++ gap0 ++ bs "(" ++ gap0 ++ separated (map col_text cols) ++ bs ")" ++ gap0 ++ bs ";" ++ p) end.
    2: { cbn [Sql_Spec.written]. rewrite <- !app_assoc. reflexivity. }
    rewrite top_go; [|exact Fg|apply kw_solid; [discriminate|caps]|apply kw_some; discriminate].
    rewrite (kw_ok _ _ _ (G4 (bs "CREATE"))) by (apply gap_stops; [apply G2|apply G1]).
    rewrite (skip_filler gap); [|apply G2|apply kw_solid; [discriminate|caps]].
    rewrite (kw_ok _ _ _ (G4 (bs "TABLE"))) by (apply gap_stops; [apply G2|apply G1]). rewrite (create_ok g t cols p Gs). reflexivity.
  - injection C as <- <-.
    match goal with |- top _ _ (g0 ++ ?w ++ p) = _ => replace (w ++ p) with (kw (bs "INSERT") ++ gap ++ kw (bs "INTO") ++ gap ++ t ++ gap ++ kw (bs "VALUES") ++ gap0 ++ bs "(" ++ gap0 ++ separated (map value_text vs) ++ bs ")" ++ gap0 ++ bs ";" ++ p) end.
    2: { cbn [Sql_Spec.written]. rewrite <- !app_assoc. reflexivity. }
    rewrite top_go; [|exact Fg|apply kw_solid; [discriminate|caps]|apply kw_some; discriminate].
    rewrite (kw_no _ _ (bs "CREATE") _ (G4 (bs "INSERT"))) by reflexivity.
    rewrite (kw_ok _ _ _ (G4 (bs "INSERT"))) by (apply gap_stops; [apply G2|apply G1]).
    rewrite (insert_ok t vs p Gs). reflexivity.
  - destruct (find t g) as [cols|] eqn:Fd; [|discriminate]. injection C as <- <-.
    match goal with |- top _ _ (g0 ++ ?w ++ p) = _ => replace (w ++ p) with (kw (bs "SELECT") ++ gap ++ bs "*" ++ gap ++ kw (bs "FROM") ++ gap ++ t ++ gap0 ++ bs ";" ++ p) end.
    2: { cbn [Sql_Spec.written]. rewrite <- !app_assoc. reflexivity. }
    rewrite top_go; [|exact Fg|apply kw_solid; [discriminate|caps]|apply kw_some; discriminate].
    rewrite (kw_no _ _ (bs "CREATE") _ (G4 (bs "SELECT"))) by reflexivity. rewrite (kw_no _ _ (bs "INSERT") _ (G4 (bs "SELECT"))) by reflexivity.
    rewrite (kw_ok _ _ _ (G4 (bs "SELECT"))) by (apply gap_stops; [apply G2|apply G1]).
    rewrite (select_ok g t cols p Gs Fd). reflexivity.
Qed.
End Layout.

(** * A block *)
Fixpoint comp_all (g : tables) (l : list stmt) : option (list cst * tables) :=
  match l with
  | [] => Some ([], g)
  | s :: l => match comp g s with
              | Some (c, g) => match comp_all g l with Some (cs, g) => Some (c :: cs, g) | None => None end
              | None => None
              end
  end.
Lemma top_all gap gap0 kw : layout gap gap0 kw -> forall l f g cs g', Forall good l -> comp_all g l = Some (cs, g') -> length l < f ->
  top f g (text gap gap0 kw l) = Ok (cs, g').
Proof.
  intros Lay. induction l as [|s l IH]; intros f g cs g' Gl C Lf.
  - destruct f as [|f]; [lia|]. injection C as <- <-. unfold text. cbn [flat_map top]. rewrite skip_filler; [reflexivity|apply Lay|exact I].
  - destruct f as [|f]; [lia|]. inversion Gl as [|? ? Gs Gl']; subst. cbn [comp_all] in C. destruct (comp g s) as [[c g1]|] eqn:C1; [|discriminate].
    destruct (comp_all g1 l) as [[cs1 g2]|] eqn:C2; [|discriminate]. injection C as <- <-.
    unfold text. cbn [flat_map]. rewrite <- app_assoc. rewrite (top_step gap gap0 kw Lay f g gap0 s c g1 _ (proj1 (proj2 (proj2 Lay))) Gs C1).
    change (gap0 ++ flat_map (fun s => written gap gap0 kw s ++ gap0) l) with (text gap gap0 kw l). rewrite (IH f g1 cs1 g2 Gl' C2); [reflexivity|cbn [length] in Lf; lia].
Qed.
Lemma written_some gap gap0 kw s : layout gap gap0 kw -> 1 <= length (written gap gap0 kw s).
Proof. intros (N & _). destruct s; cbn [written]; rewrite !app_length; change (length (bs ";")) with 1; lia. Qed.
Lemma text_length gap gap0 kw l : layout gap gap0 kw -> length l <= length (text gap gap0 kw l).
Proof.
  intros Lay. unfold text. rewrite app_length. induction l as [|s l IH]; [cbn; lia|]. cbn [flat_map length]. rewrite !app_length. pose proof (written_some gap gap0 kw s Lay). lia.
Qed.

Section Run.
Variable ev : bytes -> option cell.
Variable dec : Z -> bytes.

Definition fit (cols : list column) (cs : list cell) : Prop :=
  Forall2 (fun col c => match c with Num _ => snd col = false | Str _ => snd col = true | Null => False end) cols cs.
Lemma cells_ok cols vs r : Forall value vs -> cells ev cols vs = Some r -> initialiser ev vs = Some r /\ typed cols r = true /\ row cols r = r /\ fit cols r.
Proof.
  revert vs r. induction cols as [|[n t] cols IH]; intros vs r F H; cbn [cells] in H.
  - destruct vs; [|discriminate]. injection H as <-. splits; try reflexivity. constructor.
  - destruct vs as [|v vs]; [discriminate|]. inversion F as [|? ? Hv F']; subst. destruct (cell_of ev t v) as [c|] eqn:C; [|discriminate].
    destruct (cells ev cols vs) as [l|] eqn:E; [|discriminate]. injection H as <-. destruct (IH _ _ F' E) as (A1 & A2 & A3 & A4).
    assert (V : ev v = Some c /\ has_type t c = true /\ match c with Num _ => t = false | Str _ => t = true | Null => False end).
    { unfold cell_of in C. destruct (ev v) as [[z|s|]|]; destruct t; try discriminate; injection C as <-; now splits. }
    destruct V as (V1 & V2 & V3). assert (Nv : exists a b, v = a :: b).
    { destruct v as [|a b]; [|eauto]. destruct Hv as [(s & Q & _)|[Q _]]; [discriminate|easy]. }
    destruct Nv as (a & b & ->). splits.
    + cbn [initialiser]. now rewrite V1, A1.
    + cbn [typed]. now rewrite V2, A2.
    + cbn [row]. now rewrite A3.
    + now constructor.
Qed.
Lemma member_skip pre pcs cols cs n : length pre = length pcs -> ~ In n (map fst pre) -> member (pre ++ cols) (pcs ++ cs) n = member cols cs n.
Proof.
  revert pcs. induction pre as [|[m t] pre IH]; intros pcs E N; destruct pcs as [|c pcs]; try discriminate; [reflexivity|]. cbn [app member].
  rewrite beq_neq by (intros ->; apply N; now left). apply IH; [now injection E|]. intros I. apply N. now right.
Qed.
Lemma shown_ok cols : forall cs pre pcs, fit cols cs -> NoDup (map fst (pre ++ cols)) -> length pre = length pcs ->
  shown_all dec (pre ++ cols) (pcs ++ cs) cols = Ok (row_text dec cs).
Proof.
  induction cols as [|[n t] cols IH]; intros cs pre pcs F D E; inversion F as [|? c ? cs' Hc F']; subst; [reflexivity|]. cbn [shown_all].
  assert (M : member (pre ++ (n, t) :: cols) (pcs ++ c :: cs') n = Some c).
  { rewrite member_skip; [cbn [member]; now rewrite beq_bytes_refl|exact E|]. rewrite map_app in D. cbn [map fst] in D. apply NoDup_remove_2 in D. intros I. apply D. apply in_or_app. now left. }
  match goal with |- context [member ?a ?b n] => replace (member a b n) with (Some c) by (symmetry; exact M) end. cbn [snd] in Hc.
  assert (S1 : shown dec t (Some c) = Ok (cell_text dec c)) by (destruct c; [now subst|now subst|easy]). rewrite S1. cbn [bind].
  specialize (IH cs' (pre ++ [(n, t)]) (pcs ++ [c]) F'). rewrite <- !app_assoc in IH. cbn [app] in IH. rewrite IH; [|exact D|rewrite !app_length; cbn [length]; lia]. cbn [bind].
  inversion F' as [|? ? ? ? ? ?]; subst; [reflexivity|]. cbn [row_text]. reflexivity.
Qed.
Lemma shown_rows_ok cols l : NoDup (map fst cols) -> Forall (fit cols) l -> shown_rows dec cols l cols = Ok (concat (map (row_text dec) l)).
Proof.
  intros D. induction 1 as [|cs l F _ IH]; [reflexivity|]. cbn [shown_rows map concat]. pose proof (shown_ok cols cs [] [] F D eq_refl) as H. cbn [app] in H. rewrite H. cbn [bind]. now rewrite IH.
Qed.
Lemma lookup_update t u x db : lookup u (update t x db) = if list_eq_dec N.eq_dec t u then match lookup t db with Some _ => Some x | None => None end else lookup u db.
Proof.
  induction db as [|[v y] db IH]; cbn [update lookup]; [now destruct (list_eq_dec N.eq_dec t u)|].
  destruct (list_eq_dec N.eq_dec v t) as [->|N1]; cbn [lookup].
  - destruct (list_eq_dec N.eq_dec t u); [reflexivity|reflexivity].
  - destruct (list_eq_dec N.eq_dec v u) as [->|N2]; [destruct (list_eq_dec N.eq_dec t u); [congruence|reflexivity]|exact IH].
Qed.
Lemma find_cons {A} t u (x : A) g : find u ((t, x) :: g) = if list_eq_dec N.eq_dec t u then Some x else find u g.
Proof. cbn [find]. destruct (list_eq_dec N.eq_dec t u) as [->|N]; [now rewrite beq_bytes_refl|now rewrite beq_neq]. Qed.
Lemma distinct_ok l : NoDup l -> distinct l = true.
Proof.
  induction 1 as [|x l N _ IH]; [reflexivity|]. cbn [distinct]. rewrite IH, andb_true_r. apply negb_true_iff. destruct (existsb (beq_bytes x) l) eqn:E; [|reflexivity].
  apply existsb_exists in E as (y & I & E). apply beq_bytes_true in E. subst. contradiction.
Qed.

Record related (db : database) (d g : tables) (r : rows) : Prop := {
  rel_d : forall t, find t d = option_map fst (lookup t db);
  rel_g : forall t x, lookup t db = Some x -> find t g = Some (fst x);
  rel_r : forall t, r t = match lookup t db with Some x => snd x | None => [] end;
  rel_w : forall t x, lookup t db = Some x -> NoDup (map fst (fst x)) /\ Forall (fit (fst x)) (snd x) }.
Lemma run_ok l : forall db d g r db' o, Forall good l -> related db d g r -> meaning ev dec db l = Some (db', o) ->
  exists cs g' r', comp_all g l = Some (cs, g') /\ checked ev d cs = true /\ (forall out, exec ev dec d cs r out = Ok (r', out ++ o)) /\
  (forall t, r' t = match lookup t db' with Some x => snd x | None => [] end).
Proof.
  induction l as [|s l IH]; intros db d g r db' o Gl [Rd Rg Rr Rw] M.
  - injection M as <- <-. exists [], g, r. splits; auto. intros out. cbn [exec]. now rewrite app_nil_r.
  - inversion Gl as [|? ? Gs Gl']; subst. destruct s as [t cols|t vs|t]; cbn [meaning] in M.
    + destruct (lookup t db) as [x|] eqn:E; [discriminate|].
      change (map (fun '(n, ty) => (n, is_string ty)) cols) with (map (fun c : bytes * ctype => let '(n, ty) := c in (n, is_string ty)) cols) in M.
      assert (Em : map (fun c : bytes * ctype => let '(n, ty) := c in (n, is_string ty)) cols = map col_of cols) by (apply map_ext; now intros [n ty]). rewrite Em in M.
      destruct Gs as (Nt & Nc & Dc & Fc).
      assert (Ef : map fst (map col_of cols) = map fst cols) by (rewrite map_map; apply map_ext; now intros [n ty]).
      destruct (IH ((t, (map col_of cols, [])) :: db) ((t, map col_of cols) :: d) ((t, map col_of cols) :: g) r db' o Gl') as (cs & g' & r' & A1 & A2 & A3 & A4); [|exact M|].
      { split.
        - intros u. rewrite find_cons. cbn [lookup]. destruct (list_eq_dec N.eq_dec t u); [reflexivity|apply Rd].
        - intros u x. rewrite find_cons. cbn [lookup]. destruct (list_eq_dec N.eq_dec t u); [intros H; now injection H as <-|apply Rg].
        - intros u. rewrite Rr. cbn [lookup]. destruct (list_eq_dec N.eq_dec t u) as [->|]; [now rewrite E|reflexivity].
        - intros u x. cbn [lookup]. destruct (list_eq_dec N.eq_dec t u); [intros H; injection H as <-; cbn [fst snd]; rewrite Ef; split; [exact Dc|constructor]|apply Rw]. }
      exists (CCreate t (map col_of cols) :: cs), g', r'. splits; auto.
      * cbn [comp_all comp]. now rewrite A1.
      * cbn [checked check]. unfold known. rewrite Rd, E. cbn [option_map orb]. rewrite Ef, (distinct_ok _ Dc). cbn [negb orb].
        assert (X : existsb (fun n : list N => match n with [] => true | _ :: _ => false end) (map fst cols) = false).
        { clear -Fc. induction Fc as [|c cols (N & _) _ IH]; [reflexivity|]. cbn [map existsb]. rewrite IH. now destruct (fst c). }
        rewrite X. exact A2.
    + destruct (lookup t db) as [[cols rows]|] eqn:E; [|discriminate]. destruct (cells ev cols vs) as [rw|] eqn:C; [|discriminate].
      destruct Gs as (Nt & Nv & Fv). destruct (cells_ok _ _ _ Fv C) as (B1 & B2 & B3 & B4).
      destruct (IH (update t (cols, add_row rows rw) db) d g (if length (r t) <? 128 then set_rows t (r t ++ [row cols rw]) r else r) db' o Gl') as (cs & g' & r' & A1 & A2 & A3 & A4); [|exact M|].
      { split.
        - intros u. rewrite lookup_update. destruct (list_eq_dec N.eq_dec t u) as [->|]; [|apply Rd]. rewrite E, Rd, E. reflexivity.
        - intros u x. rewrite lookup_update. destruct (list_eq_dec N.eq_dec t u) as [->|]; [|apply Rg]. rewrite E. intros H. injection H as <-. exact (Rg _ _ E).
        - intros u. rewrite lookup_update. pose proof (Rr t) as Rt. rewrite E in Rt. cbn [snd] in Rt. rewrite Rt, B3. unfold add_row.
          destruct (length rows <? 128) eqn:Lr.
          + unfold set_rows. destruct (list_eq_dec N.eq_dec t u) as [->|Nu]; [rewrite beq_bytes_refl, E; reflexivity|]. rewrite beq_neq by congruence. apply Rr.
          + destruct (list_eq_dec N.eq_dec t u) as [<-|Nu]; [rewrite E; exact Rt|apply Rr].
        - intros u x. rewrite lookup_update. destruct (list_eq_dec N.eq_dec t u) as [->|]; [|apply Rw]. rewrite E. intros H. injection H as <-. cbn [fst snd].
          destruct (Rw _ _ E) as [W1 W2]. cbn [fst snd] in *. split; [exact W1|]. unfold add_row. destruct (length rows <? 128); [|exact W2]. apply Forall_app. split; [exact W2|]. now constructor. }
      exists (CInsert t vs :: cs), g', r'. splits; auto.
      * cbn [comp_all comp]. now rewrite A1.
      * cbn [checked check]. rewrite Rd, E. cbn [option_map fst]. now rewrite B1, B2.
      * intros out. cbn [exec]. rewrite Rd, E. cbn [option_map fst]. rewrite B1. apply A3.
    + destruct (lookup t db) as [[cols rows]|] eqn:E; [|discriminate]. destruct (meaning ev dec db l) as [[db1 o1]|] eqn:M1; [|discriminate]. injection M as <- <-.
      destruct (IH _ d g r db1 o1 Gl' (Build_related _ _ _ _ Rd Rg Rr Rw) M1) as (cs & g' & r' & A1 & A2 & A3 & A4).
      destruct (Rw _ _ E) as [W1 W2]. cbn [fst snd] in *.
      exists (CSelect t cols :: cs), g', r'. splits; auto.
      * cbn [comp_all comp]. rewrite (Rg _ _ E). cbn [fst]. now rewrite A1.
      * cbn [checked check]. rewrite Rd, E. cbn [option_map fst].
        assert (X : forallb (fun c : bytes * bool => match find (fst c) cols with Some _ => true | None => false end) cols = true).
        { apply forallb_forall. intros c I. clear -I. induction cols as [|[n ty] cols IH]; [easy|]. rewrite find_cons. destruct (list_eq_dec N.eq_dec n (fst c)) as [|Nn]; [reflexivity|].
          destruct I as [<-|I]; [now cbn in Nn|now apply IH]. }
        rewrite X. exact A2.
      * intros out. cbn [exec]. rewrite Rd, E. cbn [option_map fst]. rewrite Rr, E. cbn [snd]. rewrite (shown_rows_ok cols rows W1 W2). cbn [bind]. rewrite A3. now rewrite <- app_assoc.
Qed.
Lemma block_ok gap gap0 kw g l db o : layout gap gap0 kw -> Forall good l -> meaning ev dec [] l = Some (db, o) ->
  exists r, block ev dec g (text gap gap0 kw l) (fun _ => []) = Ok (r, o) /\ forall t, r t = match lookup t db with Some x => snd x | None => [] end.
Proof.
  intros Lay Gl M. destruct (run_ok l [] [] g (fun _ => []) db o Gl) as (cs & g' & r & A1 & A2 & A3 & A4); [|exact M|].
  { split; [reflexivity|discriminate|reflexivity|discriminate]. }
  exists r. split; [|exact A4]. unfold block, transpile. rewrite (top_all gap gap0 kw Lay l _ g cs g' Gl A1); [|pose proof (text_length gap gap0 kw l Lay); lia].
  cbn [bind]. rewrite A2. apply (A3 []).
Qed.
End Run.
