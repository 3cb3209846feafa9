(** The sql plugin *)
From Verif Require Import Common Sql_Model Sql_Spec Sql_Proofs.
Local Open Scope nat_scope.

(** C118: a block whose statements mean, in sql, the tables db and the output o prints o and leaves those rows, with any
    blanks and comments between the words and any case of the keywords *)
Theorem C118_sql_partial : forall (ev : bytes -> option cell) (dec : Z -> bytes) gap gap0 kw g (l : list stmt) db o,
  layout gap gap0 kw -> Forall good l -> meaning ev dec [] l = Some (db, o) ->
  exists r, block ev dec g (text gap gap0 kw l) (fun _ => []) = Ok (r, o) /\ forall t, r t = match lookup t db with Some x => snd x | None => [] end.
Proof. exact block_ok. Qed.
Print Assumptions C118_sql_partial.

Definition ev1 (v : bytes) : option cell := match v with [c] => Some (Num (Z.of_N c - 48)) | c :: r => Some (Str (removelast r)) | [] => None end.
Definition show (z : Z) : bytes := [Z.to_N (z + 48)].
Definition users : list stmt :=
  [Create (bs "users") [(bs "id", Int); (bs "full_name", Text)]; Insert (bs "users") [bs "1"; bs """ann, (b)"""]; Select (bs "users");
   Create (bs "t2") [(bs "x", String)]; Insert (bs "users") [bs "2"; bs """bob"""]; Select (bs "users")].
Definition small (k : bytes) : bytes := map (fun c => if ((65 <=? c) && (c <=? 90))%N then (c + 32)%N else c) k.
Lemma small_same k : same_letters (small k) k.
Proof.
  unfold small. induction k as [|c k IH]; constructor; [|exact IH]. destruct ((65 <=? c) && (c <=? 90))%N eqn:E; [|now left]. right. split; [|reflexivity].
  unfold capital. rewrite andb_true_iff, !N.leb_le in E. exact E.
Qed.
Lemma same_refl k : same_letters k k.
Proof. induction k; constructor; auto. Qed.
Definition boxed : bytes := bs "/* , ) */ ".
Example C118_sql_ex : layout (bs " ") boxed small /\ Forall good users /\
  text (bs " ") boxed small [Select (bs "t")] = bs "/* , ) */ select * from t/* , ) */ ;/* , ) */ " /\
  (exists db, meaning ev1 show [] users = Some (db, bs "1 ann, (b)" ++ [10%N] ++ bs "1 ann, (b)" ++ [10%N] ++ bs "2 bob" ++ [10%N])).
Proof.
  assert (NC : forall m x, x <> [] -> forallb ident x = true -> length x <= m -> name m x).
  { intros m x N F B. unfold name. splits; auto. apply Forall_forall. intros c I. rewrite forallb_forall in F. apply ident_ok. auto. }
  splits.
  - unfold layout. splits; [discriminate|constructor; [now left|constructor]| |apply small_same].
    change boxed with (bs "/*" ++ bs " , ) " ++ bs "*/" ++ bs " "). apply filler_comment; [|constructor; [now left|constructor]].
    intros x y E. assert (I : In 42%N (bs " , ) ")) by (rewrite E; apply in_or_app; right; now left). cbn in I. repeat destruct I as [I|I]; try discriminate. exact I.
  - assert (Q : forall s, forallb (fun c => negb ((c =? 34) || (c =? 92)))%N s = true -> value (bs """" ++ s ++ bs """")).
    { intros s F. left. exists s. split; [reflexivity|]. apply Forall_forall. intros c I. rewrite forallb_forall in F. specialize (F c I). rewrite negb_true_iff, orb_false_iff, !N.eqb_neq in F. exact F. }
    assert (P : forall d, (48 <= d <= 57)%N -> value [d]).
    { intros d H. right. split; [unfold blank; splits; lia|]. constructor; [lia|constructor]. }
    assert (U : name 63 (bs "users")) by (apply NC; [discriminate|reflexivity|cbn; lia]).
    unfold users. apply Forall_cons; [|apply Forall_cons; [|apply Forall_cons; [exact U|apply Forall_cons; [|apply Forall_cons; [|apply Forall_cons; [exact U|apply Forall_nil]]]]]].
    + unfold good. splits; [exact U|discriminate| |].
      * cbn [map fst]. apply NoDup_cons; [intros [H|[]]; discriminate|]. apply NoDup_cons; [intros []|apply NoDup_nil].
      * apply Forall_cons; [apply NC; [discriminate|reflexivity|cbn; lia]|]. apply Forall_cons; [apply NC; [discriminate|reflexivity|cbn; lia]|apply Forall_nil].
    + unfold good. splits; [exact U|discriminate|]. constructor; [apply (P 49%N); lia|]. constructor; [apply (Q (bs "ann, (b)")); reflexivity|constructor].
    + unfold good. splits; [apply NC; [discriminate|reflexivity|cbn; lia]|discriminate| |].
      * cbn [map fst]. apply NoDup_cons; [intros []|apply NoDup_nil].
      * apply Forall_cons; [apply NC; [discriminate|reflexivity|cbn; lia]|apply Forall_nil].
    + unfold good. splits; [exact U|discriminate|]. constructor; [apply (P 50%N); lia|]. constructor; [apply (Q (bs "bob")); reflexivity|constructor].
  - reflexivity.
  - eexists. reflexivity.
Qed.

(** C118, refuted: the tables of a block do not exist in another one: the C code does not compile *)
Theorem C118_elsewhere_refuted : forall ev dec gap gap0 kw g r t vs cols, layout gap gap0 kw ->
  (good (Insert t vs) -> block ev dec g (text gap gap0 kw [Insert t vs]) r = Panic) /\
  (good (Select t) -> find t g = Some cols -> block ev dec g (text gap gap0 kw [Select t]) r = Panic).
Proof.
  intros ev dec gap gap0 kw g r t vs cols Lay. split.
  - intros G. unfold block, transpile. erewrite (top_all gap gap0 kw Lay [Insert t vs]); [|now constructor|reflexivity|pose proof (text_length gap gap0 kw [Insert t vs] Lay); lia]. reflexivity.
  - intros G F. unfold block, transpile. erewrite (top_all gap gap0 kw Lay [Select t]); [|now constructor|cbn [comp_all comp]; rewrite F; reflexivity|pose proof (text_length gap gap0 kw [Select t] Lay); lia]. reflexivity.
Qed.
Print Assumptions C118_elsewhere_refuted.

(** C118, refuted: of any number of rows put into a table only 128 are kept, and nothing tells *)
Lemma meaning_inserts ev dec t cols vs rw n : cells ev cols vs = Some rw -> forall rows db l, lookup t db = Some (cols, rows) -> (forall x, In x rows -> x = rw) -> length rows <= 128 ->
  exists db', lookup t db' = Some (cols, repeat rw (Nat.min 128 (length rows + n))) /\ meaning ev dec db (repeat (Insert t vs) n ++ l) = meaning ev dec db' l.
Proof.
  intros C. induction n as [|n IH]; intros rows db l Lk All B.
  - exists db. split; [|reflexivity]. rewrite Lk, Nat.add_0_r, Nat.min_r by lia. do 2 f_equal. clear -All. induction rows as [|x rows IH]; [reflexivity|]. cbn [length repeat]. rewrite (All x) by now left. f_equal. apply IH. intros y I. apply All. now right.
  - cbn [repeat app meaning]. rewrite Lk, C.
    assert (A : forall x, In x (add_row rows rw) -> x = rw).
    { intros x. unfold add_row. destruct (length rows <? 128); [|apply All]. intros I. apply in_app_or in I as [I|[<-|[]]]; auto. }
    assert (Len : length (add_row rows rw) = Nat.min 128 (S (length rows))).
    { unfold add_row. destruct (Nat.ltb_spec (length rows) 128); [rewrite app_length; cbn [length]; lia|lia]. }
    destruct (IH (add_row rows rw) (update t (cols, add_row rows rw) db) l) as (db' & D1 & D2); [|exact A|lia|].
    + rewrite lookup_update, Lk. destruct (list_eq_dec N.eq_dec t t); [reflexivity|congruence].
    + exists db'. split; [|exact D2]. rewrite D1, Len. do 3 f_equal. lia.
Qed.
Theorem C118_full_refuted : forall ev dec gap gap0 kw g t cols vs rw n, layout gap gap0 kw -> good (Create t cols) -> good (Insert t vs) ->
  cells ev (map (fun '(n, ty) => (n, is_string ty)) cols) vs = Some rw ->
  exists r, block ev dec g (text gap gap0 kw (Create t cols :: repeat (Insert t vs) n ++ [Select t])) (fun _ => []) = Ok (r, concat (repeat (row_text dec rw) (Nat.min 128 n))).
Proof.
  intros ev dec gap gap0 kw g t cols vs rw n Lay G1 G2 C. set (cs := map (fun '(n, ty) => (n, is_string ty)) cols) in *.
  destruct (meaning_inserts ev dec t cs vs rw n C [] [(t, (cs, []))] [Select t]) as (db' & D1 & D2); [cbn [lookup]; destruct (list_eq_dec N.eq_dec t t); [reflexivity|congruence]|easy|cbn; lia|].
  destruct (block_ok ev dec gap gap0 kw g (Create t cols :: repeat (Insert t vs) n ++ [Select t]) db' (concat (map (row_text dec) (repeat rw (Nat.min 128 n))) ++ []) Lay) as (r & R & _).
  - constructor; [exact G1|]. apply Forall_app. split; [apply Forall_forall; intros s I; apply repeat_spec in I; now subst|]. constructor; [|constructor]. apply G1.
  - cbn [meaning lookup]. etransitivity; [exact D2|]. cbn [meaning]. rewrite D1. reflexivity.
  - exists r. rewrite R, app_nil_r. do 3 f_equal. clear. induction (Nat.min 128 n) as [|k IH]; [reflexivity|]. cbn [repeat map]. now rewrite IH.
Qed.
Print Assumptions C118_full_refuted.
Example C118_full_ex : cells ev1 (map (fun '(n, ty) => (n, is_string ty)) [(bs "a", Int)]) [bs "7"] = Some [Num 7].
Proof. reflexivity. Qed.

(** C118, refuted: what is behind the name of the table is not looked at, and columns cannot be named *)
Theorem C118_where_refuted : forall g cols,
  transpile ((bs "t", cols) :: g) (bs "SELECT * FROM t WHERE id = 1 LIMIT 2;") = transpile ((bs "t", cols) :: g) (bs "SELECT * FROM t;") /\
  transpile ((bs "t", cols) :: g) (bs "SELECT * FROM t;") = Ok ([CSelect (bs "t") cols], (bs "t", cols) :: g) /\
  transpile ((bs "t", cols) :: g) (bs "SELECT id FROM t;") = Panic.
Proof. intros g cols. splits; reflexivity. Qed.
Print Assumptions C118_where_refuted.

(** C118, refuted: a statement behind -- runs *)
Theorem C118_comment_refuted : forall ev dec gap gap0 kw g s l db o, layout gap gap0 kw -> Forall good (s :: l) -> meaning ev dec [] (s :: l) = Some (db, o) ->
  exists r, block ev dec g (bs "--" ++ text gap gap0 kw (s :: l)) (fun _ => []) = Ok (r, o).
Proof.
  intros ev dec gap gap0 kw g s l db o Lay G M. destruct (block_ok ev dec gap gap0 kw g (s :: l) db o Lay G M) as (r & R & _). exists r. rewrite <- R.
  destruct (run_ok ev dec (s :: l) [] [] g (fun _ => []) db o G) as (cs & g' & r' & A1 & A2 & A3 & A4); [|exact M|].
  { split; [reflexivity|discriminate|reflexivity|discriminate]. }
  unfold block, transpile. pose proof (text_length gap gap0 kw (s :: l) Lay) as Len.
  rewrite (top_all gap gap0 kw Lay (s :: l) _ g cs g' G A1) by lia.
  change (top (S (length (bs "--" ++ text gap gap0 kw (s :: l)))) g (bs "--" ++ text gap gap0 kw (s :: l))) with (top (S (length (text gap gap0 kw (s :: l)))) g (text gap gap0 kw (s :: l))).
  now rewrite (top_all gap gap0 kw Lay (s :: l) _ g cs g' G A1) by lia.
Qed.
Print Assumptions C118_comment_refuted.

(** C118, refuted: VARCHAR is a column of numbers; a single T is one of strings *)
Theorem C118_type_refuted : forall ev dec g r s, ev (bs """x""") = Some (Str s) ->
  block ev dec g (bs "CREATE TABLE t (a VARCHAR); INSERT INTO t VALUES (""x"");") r = Panic /\
  block ev dec g (bs "CREATE TABLE t (a T); INSERT INTO t VALUES (""x""); SELECT * FROM t;") (fun _ => []) = Ok (set_rows (bs "t") [[Str s]] (fun _ => []), s ++ [10%N]).
Proof.
  intros ev dec g r s E. unfold block. split.
  - replace (transpile g (bs "CREATE TABLE t (a VARCHAR); INSERT INTO t VALUES (""x"");")) with (Ok ([CCreate (bs "t") [(bs "a", false)]; CInsert (bs "t") [bs """x"""]], (bs "t", [(bs "a", false)]) :: g)) by reflexivity.
    cbn [bind]. replace (checked ev [] [CCreate (bs "t") [(bs "a", false)]; CInsert (bs "t") [bs """x"""]]) with (match ev (bs """x""") with Some c => typed [(bs "a", false)] [c] | None => false end); [now rewrite E|].
    vm_compute in E. vm_compute. rewrite E. reflexivity.
  - replace (transpile g (bs "CREATE TABLE t (a T); INSERT INTO t VALUES (""x""); SELECT * FROM t;"))
      with (Ok ([CCreate (bs "t") [(bs "a", true)]; CInsert (bs "t") [bs """x"""]; CSelect (bs "t") [(bs "a", true)]], (bs "t", [(bs "a", true)]) :: g)) by reflexivity.
    transitivity (Ok (set_rows (bs "t") [[Str s]] (fun _ => []), (s ++ [10%N]) ++ [])); [|now rewrite app_nil_r]. vm_compute in E. vm_compute. rewrite E. reflexivity.
Qed.
Print Assumptions C118_type_refuted.

(** C118: a number is no string, and strings side by side are one *)
Theorem C118_number : forall ev dec g r z, ev (bs "1") = Some (Num z) -> block ev dec g (bs "CREATE TABLE t (a TEXT); INSERT INTO t VALUES (1);") r = Panic.
Proof.
  intros ev dec g r z E. unfold block.
  replace (transpile g (bs "CREATE TABLE t (a TEXT); INSERT INTO t VALUES (1);")) with (Ok ([CCreate (bs "t") [(bs "a", true)]; CInsert (bs "t") [bs "1"]], (bs "t", [(bs "a", true)]) :: g)) by reflexivity.
  vm_compute in E. vm_compute. rewrite E. reflexivity.
Qed.
Print Assumptions C118_number.
Theorem C118_adjacent : forall g, transpile g (bs "INSERT INTO t VALUES (""a"" ""b"" ""c"", 2);") = Ok ([CInsert (bs "t") [bs """a""""b""""c"""; bs "2"]], g).
Proof. reflexivity. Qed.
Print Assumptions C118_adjacent.
(** C118, refuted: a call is cut at its parenthesis *)
Theorem C118_call_refuted : forall ev dec g r, ev (bs "abs(1") = None -> block ev dec g (bs "CREATE TABLE t (a INT); INSERT INTO t VALUES (abs(1));") r = Panic.
Proof.
  intros ev dec g r E. unfold block.
  replace (transpile g (bs "CREATE TABLE t (a INT); INSERT INTO t VALUES (abs(1));")) with (Ok ([CCreate (bs "t") [(bs "a", false)]; CInsert (bs "t") [bs "abs(1"]], (bs "t", [(bs "a", false)]) :: g)) by reflexivity.
  vm_compute in E. vm_compute. rewrite E. reflexivity.
Qed.
Print Assumptions C118_call_refuted.

(** C118, refuted: a string that is not given is a null pointer, and showing it is undefined; so is a string that ends
    with a backslash, and a long name *)
Theorem C118_missing_refuted : forall ev dec g z, ev (bs "1") = Some (Num z) ->
  block ev dec g (bs "CREATE TABLE t (a INT, b TEXT); INSERT INTO t VALUES (1); SELECT * FROM t;") (fun _ => []) = UB.
Proof.
  intros ev dec g z E. unfold block.
  replace (transpile g (bs "CREATE TABLE t (a INT, b TEXT); INSERT INTO t VALUES (1); SELECT * FROM t;"))
    with (Ok ([CCreate (bs "t") [(bs "a", false); (bs "b", true)]; CInsert (bs "t") [bs "1"]; CSelect (bs "t") [(bs "a", false); (bs "b", true)]], (bs "t", [(bs "a", false); (bs "b", true)]) :: g)) by reflexivity.
  vm_compute in E. vm_compute. rewrite E. reflexivity.
Qed.
Print Assumptions C118_missing_refuted.
Lemma one_space : filler (bs " ").
Proof. constructor; [now left|constructor]. Qed.
Lemma kw_lit k p : stops p -> match_kw k (k ++ p) = Some p.
Proof. apply kw_ok, same_refl. Qed.
Lemma no_lit k1 k2 p : existsb (fun '(a, b) => negb (lower a =? lower b)%N) (combine k2 k1) = true -> match_kw k2 (k1 ++ p) = None.
Proof. apply kw_no, same_refl. Qed.
Ltac easy_stops := cbn; unfold name_char; lia.
Ltac easy_solid := cbn; unfold blank; lia.
Lemma top_lit f g q : solid q -> q <> [] -> top (S f) g q =
  match match_kw (bs "CREATE") q with
  | Some p => bind (create g (match match_kw (bs "TABLE") (skip p) with Some p => p | None => skip p end)) (fun '(s, g, p) => bind (top f g p) (fun '(l, g) => Ok (s :: l, g)))
  | None =>
    match match_kw (bs "INSERT") q with
    | Some p => bind (insert p) (fun '(s, p) => bind (top f g p) (fun '(l, g) => Ok (s :: l, g)))
    | None =>
      match match_kw (bs "SELECT") q with
      | Some p => bind (select g p) (fun '(s, p) => bind (top f g p) (fun '(l, g) => Ok (s :: l, g)))
      | None => top f g (tl q)
      end
    end
  end.
Proof. exact (top_go f g [] q filler_nil). Qed.
Theorem C118_backslash_refuted : forall g s, Forall (fun c => c <> 34 /\ c <> 92)%N s -> transpile g (bs "INSERT INTO t VALUES (""" ++ s ++ bs "\") = UB.
Proof.
  intros g s F. assert (Q : quoted (s ++ bs "\") = UB).
  { induction F as [|c s [A B] _ IH]; [reflexivity|]. cbn [app quoted]. apply N.eqb_neq in A, B. now rewrite A, B, IH. }
  unfold transpile. generalize (length (bs "INSERT INTO t VALUES (""" ++ s ++ bs "\")). intros f.
  change (bs "INSERT INTO t VALUES (""" ++ s ++ bs "\") with (bs "INSERT" ++ bs " " ++ bs "INTO" ++ bs " " ++ bs "t" ++ bs " " ++ bs "VALUES" ++ bs " " ++ bs "(" ++ bs """" ++ s ++ bs "\").
  rewrite top_lit; [|easy_solid|discriminate]. rewrite no_lit by reflexivity. rewrite kw_lit by easy_stops. unfold insert. cbv zeta.
  rewrite (skip_filler (bs " ")); [|apply one_space|easy_solid]. rewrite kw_lit by easy_stops. rewrite (skip_filler (bs " ")); [|apply one_space|easy_solid].
  rewrite (word_ok (bs "t")); [|apply Forall_cons; [unfold name_char; cbn; lia|apply Forall_nil]|easy_stops]. change (64 <=? length (bs "t")) with false. cbv iota.
  rewrite (skip_filler (bs " ")); [|apply one_space|easy_solid]. rewrite kw_lit by easy_stops. rewrite (skip_filler (bs " ")); [|apply one_space|easy_solid].
  change (opening (bs "(" ++ bs """" ++ s ++ bs "\")) with (34%N :: s ++ bs "\"). cbn [values]. change (34 =? 41)%N with false. cbv iota.
  rewrite skip_solid by easy_solid. cbn [one_value]. change (34 =? 34)%N with true. cbv iota. rewrite Q. reflexivity.
Qed.
Print Assumptions C118_backslash_refuted.
Theorem C118_long_refuted : forall g t p, Forall name_char t -> 64 <= length t -> transpile g (bs "CREATE TABLE " ++ t ++ bs "(" ++ p) = UB.
Proof.
  intros g t p F B. unfold transpile.
  generalize (length (bs "CREATE TABLE " ++ t ++ bs "(" ++ p)). intros f.
  change (bs "CREATE TABLE " ++ t ++ bs "(" ++ p) with (bs "CREATE" ++ bs " " ++ bs "TABLE" ++ bs " " ++ t ++ bs "(" ++ p).
  rewrite top_lit; [|easy_solid|discriminate]. rewrite kw_lit by easy_stops. rewrite (skip_filler (bs " ")); [|apply one_space|easy_solid]. rewrite kw_lit by easy_stops.
  unfold create. rewrite (skip_filler (bs " ")); [|apply one_space|apply solid_name; [intros ->; cbn in B; lia|exact F]].
  rewrite word_ok; [|exact F|cbn; unfold name_char; lia]. apply Nat.leb_le in B. rewrite B. reflexivity.
Qed.
Print Assumptions C118_long_refuted.
Example C118_long_ex : Forall name_char (repeat 97%N 64) /\ 64 <= length (repeat 97%N 64).
Proof. split; [|cbn; lia]. apply Forall_forall. intros c H. apply repeat_spec in H. subst. unfold name_char. lia. Qed.

(** C118, refuted: the tables keep their rows from one run of the block to the next *)
Theorem C118_again_refuted : forall ev dec g z, ev (bs "1") = Some (Num z) ->
  let p := bs "CREATE TABLE t (a INT); INSERT INTO t VALUES (1); SELECT * FROM t;" in
  exists r1 r2, block ev dec g p (fun _ => []) = Ok (r1, dec z ++ [10%N]) /\ block ev dec g p r1 = Ok (r2, dec z ++ [10%N] ++ dec z ++ [10%N]).
Proof.
  intros ev dec g z E p. unfold block.
  replace (transpile g p) with (Ok ([CCreate (bs "t") [(bs "a", false)]; CInsert (bs "t") [bs "1"]; CSelect (bs "t") [(bs "a", false)]], (bs "t", [(bs "a", false)]) :: g)) by reflexivity.
  exists (set_rows (bs "t") [[Num z]] (fun _ => [])), (set_rows (bs "t") [[Num z]; [Num z]] (set_rows (bs "t") [[Num z]] (fun _ => []))). split.
  - transitivity (Ok (set_rows (bs "t") [[Num z]] (fun _ => []), (dec z ++ [10%N]) ++ [])); [|now rewrite app_nil_r]. vm_compute in E. vm_compute. rewrite E. reflexivity.
  - transitivity (Ok (set_rows (bs "t") [[Num z]; [Num z]] (set_rows (bs "t") [[Num z]] (fun _ => [])), (dec z ++ [10%N]) ++ (dec z ++ [10%N]) ++ [])); [|now rewrite app_nil_r, <- app_assoc].
    vm_compute in E. vm_compute. rewrite E. reflexivity.
Qed.
Print Assumptions C118_again_refuted.

(** C118: a table that is not known is an error *)
Theorem C118_unknown : forall g t p, Forall name_char t -> find t g = None -> length t < 64 -> transpile g (bs "SELECT * FROM " ++ t ++ bs ";" ++ p) = Panic.
Proof.
  intros g t p F N B.
  assert (E : transpile g (bs "SELECT * FROM " ++ t ++ bs ";" ++ p) = if 64 <=? length t then UB else Panic).
  { unfold transpile.
    generalize (length (bs "SELECT * FROM " ++ t ++ bs ";" ++ p)). intros f.
    change (bs "SELECT * FROM " ++ t ++ bs ";" ++ p) with (bs "SELECT" ++ bs " " ++ bs "*" ++ bs " " ++ bs "FROM" ++ bs " " ++ t ++ bs ";" ++ p).
    rewrite top_lit; [|easy_solid|discriminate]. rewrite !no_lit by reflexivity. rewrite kw_lit by easy_stops. unfold select. cbv zeta.
    rewrite (skip_filler (bs " ")); [|apply one_space|easy_solid]. rewrite kw_lit by easy_stops. rewrite (skip_filler (bs " ")); [|apply one_space|easy_solid]. rewrite kw_lit by easy_stops.
    assert (Sk : skip (bs " " ++ t ++ bs ";" ++ p) = t ++ bs ";" ++ p).
    { apply skip_filler; [constructor; [now left|constructor]|]. destruct t as [|c t]; [cbn; unfold blank; lia|]. now apply solid_name. }
    rewrite Sk, word_ok; [|exact F|cbn; unfold name_char; lia]. rewrite N. now destruct (64 <=? length t). }
  rewrite E. apply Nat.leb_gt in B. now rewrite B.
Qed.
Print Assumptions C118_unknown.
