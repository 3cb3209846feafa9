(** Proofs about print statements. *)
From Verif Require Import Common StrLit_Model StrLit_Spec StrLit_Proofs FStr_Model FStr_Proofs Print_Model Print_Spec.
Local Open Scope nat_scope.

Lemma scan_open d i col r : scan (S d) i col (123%N :: r) = scan (S (S d)) (S i) col r.
Proof. reflexivity. Qed.
Lemma scan_shut d i col r : scan (S (S d)) i col (125%N :: r) = scan (S d) (S i) col r.
Proof. cbn. now rewrite andb_false_r. Qed.
Lemma scan_pair i r : scan 1 i None (58%N :: 58%N :: r) = scan 1 (S (S i)) None r.
Proof. reflexivity. Qed.
Lemma scan_colon i d r : d <> 58%N -> scan 1 i None (58%N :: d :: r) = scan 1 (S i) (Some i) (d :: r).
Proof. intros N. destruct (N.eqb_spec d 58) as [->|]; [congruence|]. cbn [scan]. change (58 =? 123)%N with false. change (58 =? 125)%N with false. change (58 =? 58)%N with true.
  cbv iota. cbn [Nat.eqb andb]. destruct (N.eqb_spec d 58); [congruence|reflexivity]. Qed.
Lemma scan_deep a : balanced a -> forall d i col r, scan (S (S d)) i col (a ++ r) = scan (S (S d)) (i + length a) col r.
Proof.
  induction 1 as [|c s N1 N2 B IH|a s Ba IHa Bs IHs]; intros d i col r.
  - cbn. now rewrite Nat.add_0_r.
  - cbn [app scan length]. destruct (N.eqb_spec c 123); [congruence|]. destruct (N.eqb_spec c 125); [congruence|].
    cbn [Nat.eqb andb]. rewrite IH. f_equal. lia.
  - cbn [app]. rewrite scan_open, <- app_assoc, IHa. cbn [app]. rewrite scan_shut, IHs. f_equal. cbn [length]. rewrite app_length. cbn [length]. lia.
Qed.
Lemma scan_colonless s : colonless s -> forall i r, scan 1 i None (s ++ r) = scan 1 (i + length s) None r.
Proof.
  induction 1 as [|c s N1 N2 N3 B IH|s B IH|a s Ba Bs IHs]; intros i r.
  - cbn. now rewrite Nat.add_0_r.
  - cbn [app scan length]. destruct (N.eqb_spec c 123); [congruence|]. destruct (N.eqb_spec c 125); [congruence|].
    destruct (N.eqb_spec c 58); [congruence|]. cbn [Nat.eqb andb]. rewrite IH. f_equal. lia.
  - cbn [app]. rewrite scan_pair, IH. f_equal. cbn [length]. lia.
  - cbn [app]. rewrite scan_open, <- app_assoc, (scan_deep a Ba). cbn [app]. rewrite scan_shut, IHs. f_equal. cbn [length]. rewrite app_length. cbn [length]. lia.
Qed.
Lemma scan_format f : ~ In 123%N f -> ~ In 125%N f -> forall i c r, scan 1 i (Some c) (f ++ r) = scan 1 (i + length f) (Some c) r.
Proof.
  induction f as [|x f IH]; intros N1 N2 i c r; [cbn; now rewrite Nat.add_0_r|].
  cbn [app scan length]. destruct (N.eqb_spec x 123) as [->|]; [destruct N1; now left|].
  destruct (N.eqb_spec x 125) as [->|]; [destruct N2; now left|]. rewrite andb_false_r. cbn [Nat.eqb].
  rewrite IH; [f_equal; lia| |]; intros X; [apply N1|apply N2]; now right.
Qed.
Lemma scan_close i col r : scan 1 i col (125%N :: r) = (i, col).
Proof. reflexivity. Qed.

Lemma unescape_unquoted s u : unquoted s u -> unescape s = u.
Proof.
  induction 1 as [|s u H IH|c s u N H IH]; [reflexivity| |].
  - cbn [unescape]. cbn [N.eqb Pos.eqb andb]. now rewrite IH.
  - cbn [unescape]. destruct s as [|d r]; [inversion H; subst; reflexivity|].
    destruct (N.eqb_spec c 92) as [->|]; [destruct (N.eqb_spec d 34) as [->|]|]; cbn [andb]; [destruct N; split; eauto| |]; now rewrite IH.
Qed.
Lemma unquoted_id s : ~ occurs [92; 34]%N s -> unquoted s s.
Proof.
  induction s as [|c s IH]; intros N; [constructor|]. constructor.
  - intros [-> [r ->]]. apply N. exists [], r. reflexivity.
  - apply IH. intros (a & b & ->). apply N. exists (c :: a), b. reflexivity.
Qed.
Lemma unquoted_app s u t : unquoted s u -> forall v, unquoted t v -> (forall r, t <> 34%N :: r) -> unquoted (s ++ t) (u ++ v).
Proof.
  induction 1 as [|s u H IH|c s u N H IH]; intros v Hv Nt; cbn [app]; [assumption|constructor; auto|].
  constructor; auto. intros [-> [r E]]. destruct s as [|d s]; cbn [app] in E; [now destruct (Nt r)|].
  injection E as -> _. apply N. split; eauto.
Qed.
Lemma unquoted_in s u x : unquoted s u -> In x u -> In x s.
Proof.
  induction 1 as [|s u H IH|c s u N H IH]; intros I; [assumption| |].
  - destruct I as [<-|I]; [right; now left|]. right. right. auto.
  - destruct I as [<-|I]; [now left|]. right. auto.
Qed.
Lemma unquoted_length s u : unquoted s u -> length u <= length s.
Proof. induction 1; cbn [length]; lia. Qed.
Lemma skip_repeat n s0 : (forall r, s0 <> 32%N :: r) -> skip_spaces (repeat 32%N n ++ s0) = s0.
Proof.
  intros N. induction n as [|n IH]; [|exact IH]. cbn. destruct s0 as [|c r]; [reflexivity|]. cbn.
  destruct (N.eqb_spec c 32) as [->|]; [now destruct (N r)|reflexivity].
Qed.
Definition clean (src : bytes) : bytes := skip_spaces (unescape src).
Lemma clean_text src s0 : text_of src s0 -> clean src = s0.
Proof. intros (n & U & N). unfold clean. rewrite (unescape_unquoted _ _ U). now apply skip_repeat. Qed.
Lemma cstr_app a r : ~ In 0%N a -> cstr (a ++ 0%N :: r) = a.
Proof.
  induction a as [|c a IH]; intros N; [reflexivity|]. cbn. destruct (N.eqb_spec c 0) as [->|]; [destruct N; now left|].
  f_equal. apply IH. intros X. apply N. now right.
Qed.

Lemma to_brace_all t : ~ In 123%N t -> to_brace t = length t.
Proof. induction t as [|c t IH]; intros N; [reflexivity|]. cbn. destruct (N.eqb_spec c 123) as [->|]; [destruct N; now left|]. f_equal. apply IH. intros X. apply N. now right. Qed.
Lemma to_brace_at t r : ~ In 123%N t -> to_brace (t ++ 123%N :: r) = length t.
Proof. induction t as [|c t IH]; intros N; [reflexivity|]. cbn. destruct (N.eqb_spec c 123) as [->|]; [destruct N; now left|]. f_equal. apply IH. intros X. apply N. now right. Qed.

Section Proofs.
Variable expr : Type.
Variable parse_expression : bytes -> res expr.
Variable inferred_type : bytes -> expr -> option bytes.
Variable struct_of : expr -> option (bytes * bool).
Variable has_func : bytes -> bool.
Variable emit : expr -> bytes.
Notation loop := (sugar_loop parse_expression inferred_type struct_of has_func).
Notation rewrite_arg := (rewrite_arg struct_of has_func).
Notation choose := (choose inferred_type).
Notation piece_ok := (piece_ok expr parse_expression).

Definition arg_of (e : expr) : arg expr := match rewrite_arg e with Ok a => a | _ => Plain e end.
Definition arg_ok (e : expr) : Prop := rewrite_arg e = Ok (arg_of e).
Definition stmt_of (p : piece expr) : pstmt expr :=
  match p with
  | PText t _ => Text (esc t)
  | PExpr src e fmt => choose (clean src) fmt e (arg_of e)
  end.
Definition arg_piece (p : piece expr) : Prop := match p with PText _ _ => True | PExpr _ e _ => arg_ok e end.
Definition pre (t : bytes) : list (pstmt expr) := match t with [] => [] | _ => [Text (esc t)] end.

Lemma pre_ok t : (if 0 <? length t then do e <- escape_c_string t; Ok [Text e] else Ok []) = Ok (pre t).
Proof. destruct t as [|c t]; [reflexivity|]. cbn [length Nat.ltb Nat.leb]. rewrite escape_ok. reflexivity. Qed.

(** One turn of the loop, in general *)
Lemma loop_turn fuel t body : ~ In 123%N t ->
  loop (S fuel) (t ++ 123%N :: body) =
  (let '(p, colon) := scan 1 0 None body in
   let region := cut colon (rewritten (firstn p body)) in
   let src := skip_spaces (cstr region) in
   let fmt := match colon with Some c => Some (cstr (skipn (S c) region)) | None => None end in
   do e <- parse_expression src;
   do a <- rewrite_arg e;
   match skipn p body with
   | [] => UB
   | _ :: rest => do r <- loop fuel rest; Ok (pre t ++ choose src fmt e a :: r)
   end).
Proof.
  intros N. cbn [sugar_loop]. rewrite app_length. cbn [length]. rewrite Nat.add_succ_r. cbn [Nat.eqb].
  rewrite (to_brace_at t body N). rewrite firstn_app, Nat.sub_diag, firstn_all. cbn [firstn]. rewrite app_nil_r.
  rewrite pre_ok. cbn [bind]. rewrite skipn_app, skipn_all, Nat.sub_diag. cbn [skipn app]. reflexivity.
Qed.
Lemma loop_text fuel t : ~ In 123%N t -> t <> [] -> loop (S fuel) t = Ok [Text (esc t)].
Proof.
  intros N NE. cbn [sugar_loop]. destruct t as [|c t]; [congruence|]. cbn [length Nat.eqb]. rewrite (to_brace_all (c :: t) N), firstn_all, skipn_all.
  rewrite pre_ok. reflexivity.
Qed.

Lemma firstn_at (s r : bytes) : firstn (length s) (s ++ r) = s.
Proof. rewrite firstn_app, Nat.sub_diag, firstn_all. cbn. apply app_nil_r. Qed.
Lemma skipn_at (s r : bytes) : skipn (length s) (s ++ r) = r.
Proof. now rewrite skipn_app, skipn_all, Nat.sub_diag. Qed.

Lemma loop_expr fuel t src e fmt rest : ~ In 123%N t -> piece_ok (PExpr src e fmt) -> arg_ok e ->
  loop (S fuel) (t ++ show (PExpr src e fmt) ++ rest) =
  do r <- loop fuel rest; Ok (pre t ++ stmt_of (PExpr src e fmt) :: r).
Proof.
  intros Nt (CL & Z & (s0 & T & P) & F) A. cbn [stmt_of]. rewrite (clean_text src s0 T). destruct fmt as [f|]; cbn [show].
  - destruct F as (Q1 & Q2 & Zf & B1 & B2 & NE & N58).
    replace (t ++ (123%N :: src ++ 58%N :: f ++ [125%N]) ++ rest) with (t ++ 123%N :: src ++ 58%N :: f ++ 125%N :: rest)
      by (cbn [app]; rewrite <- !app_assoc; cbn [app]; rewrite <- !app_assoc; reflexivity).
    rewrite loop_turn by assumption. rewrite scan_colonless by assumption. cbn [plus].
    assert (S1 : scan 1 (length src) None (58%N :: f ++ 125%N :: rest) = (length src + 1 + length f, Some (length src))).
    { destruct f as [|d f]; [congruence|]. cbn [app]. rewrite scan_colon by (intros ->; now destruct (N58 f)). change (d :: f ++ 125%N :: rest) with ((d :: f) ++ 125%N :: rest).
      rewrite scan_format by assumption. rewrite scan_close. f_equal. lia. }
    rewrite S1. cbv zeta.
    replace (length src + 1 + length f) with (length (src ++ 58%N :: f)) by (rewrite app_length; cbn [length]; lia).
    replace (src ++ 58%N :: f ++ 125%N :: rest) with ((src ++ 58%N :: f) ++ 125%N :: rest) by (rewrite <- app_assoc; reflexivity).
    rewrite firstn_at, skipn_at.
    assert (U : unescape (src ++ 58%N :: f) = src ++ 58%N :: f).
    { apply unescape_unquoted. apply unquoted_app; [now apply unquoted_id| |discriminate].
      constructor; [intros [E _]; discriminate|now apply unquoted_id]. }
    unfold rewritten. rewrite U. rewrite skipn_all2 by (rewrite app_length; cbn [length]; lia).
    unfold cut. rewrite <- app_assoc. rewrite firstn_at.
    replace (skipn (S (length src)) (src ++ (58%N :: f) ++ [0%N])) with (f ++ [0%N]).
    2: { change (S (length src)) with (1 + length src). rewrite Nat.add_comm, <- skipn_skipn'. now rewrite skipn_at. }
    rewrite cstr_app by assumption.
    replace (skipn (S (length src)) (src ++ 0%N :: f ++ [0%N])) with (f ++ [0%N]).
    2: { change (S (length src)) with (1 + length src). rewrite Nat.add_comm, <- skipn_skipn'. now rewrite skipn_at. }
    rewrite cstr_app by assumption.
    assert (E0 : skip_spaces src = s0). { rewrite <- (clean_text src s0 T). unfold clean. now rewrite (unescape_unquoted _ _ (unquoted_id src Q1)). }
    rewrite E0, P. cbn [bind]. rewrite A. reflexivity.
  - replace (t ++ (123%N :: src ++ [125%N]) ++ rest) with (t ++ 123%N :: src ++ 125%N :: rest) by (cbn [app]; rewrite <- app_assoc; reflexivity).
    rewrite loop_turn by assumption. rewrite scan_colonless by assumption. cbn [plus]. rewrite scan_close. cbv zeta.
    rewrite firstn_at, skipn_at. cbn [cut]. unfold rewritten.
    assert (Zu : ~ In 0%N (unescape src)).
    { destruct T as (n & U & _). rewrite (unescape_unquoted _ _ U). intros I. apply Z. now apply (unquoted_in _ _ _ U). }
    rewrite cstr_app by assumption. fold (clean src). rewrite (clean_text src s0 T), P. cbn [bind]. rewrite A. reflexivity.
Qed.

Lemma loop_pieces n : forall ps fuel, length ps <= n -> Forall piece_ok ps -> Forall arg_piece ps -> no_adjacent expr ps -> length ps < fuel ->
  loop fuel (flat_map show ps) = Ok (map stmt_of ps).
Proof.
  induction n as [|n IH]; intros qs fuel Ln F A NA L.
  { destruct qs; [|cbn in Ln; lia]. destruct fuel; [cbn in L; lia|reflexivity]. }
  destruct qs as [|p qs]; [destruct fuel; [cbn in L; lia|reflexivity]|].
  destruct fuel as [|fuel]; [lia|]. inversion F as [|? ? OK F']; subst. inversion A as [|? ? Ap A']; subst.
  cbn [length] in L, Ln. cbn [flat_map map].
  destruct p as [t v|src e fmt].
  - destruct OK as (NE & NB & OK). destruct qs as [|[t' v'|src e fmt] qs].
    + cbn [flat_map map app]. rewrite app_nil_r. now apply loop_text.
    + destruct NA.
    + inversion F' as [|? ? OKq F'']; subst. inversion A' as [|? ? Aq A'']; subst. cbn [flat_map map]. cbn [length] in L, Ln.
      change (show (PText t v)) with t. rewrite (loop_expr fuel t src e fmt _ NB OKq Aq). rewrite IH; auto; [|lia|lia].
      cbn [bind]. unfold pre. destruct t; [congruence|reflexivity].
  - pose proof (loop_expr fuel [] src e fmt (flat_map show qs) (fun x => x) OK Ap) as T. cbn [app] in T. rewrite T. rewrite IH; auto; try lia.
Qed.
Lemma show_len p : piece_ok p -> 1 <= length (show p).
Proof. destruct p as [t v|src e [f|]]; cbn; try lia. intros [N _]. destruct t; [congruence|cbn; lia]. Qed.
Lemma pieces_len ps : Forall piece_ok ps -> length ps <= length (flat_map show ps).
Proof.
  induction 1 as [|p ps OK F IH]; [cbn; lia|]. cbn [flat_map]. rewrite app_length. cbn [length]. apply show_len in OK. unfold bytes in *. lia.
Qed.
Lemma loop_ok ps : Forall piece_ok ps -> Forall arg_piece ps -> no_adjacent expr ps ->
  loop (S (length (flat_map show ps))) (flat_map show ps) = Ok (map stmt_of ps).
Proof. intros F A NA. apply (loop_pieces (length ps)); auto. pose proof (pieces_len ps F). unfold bytes in *. lia. Qed.

(** The size of the generated text *)
Lemma esc_length s : length (esc s) <= 2 * length s.
Proof.
  induction s as [|c|c d r IH1 IH2] using two_ind; [cbn; lia| |].
  - cbn [esc]. repeat destruct (_ =? _)%N; cbn [length]; lia.
  - destruct (N.eqb_spec c 92) as [->|N]; [cbn [esc]; cbn [length] in *; change (92 =? 92)%N with true; cbn [length]; lia|].
    rewrite esc_cons by assumption. destruct (c =? 10)%N, (c =? 13)%N, (c =? 9)%N, (c =? 34)%N; cbn [length] in *; lia.
Qed.
Lemma target_len t : length (target_name t) = 6.
Proof. destruct t; reflexivity. Qed.
Lemma arg_len e : arg_ok e -> length (arg_text emit (arg_of e)) <= length (emit e) + match struct_of e with Some (n, _) => 2 * length n | None => 0 end + 50.
Proof.
  unfold arg_ok, arg_of, Print_Model.rewrite_arg. destruct (struct_of e) as [[n p]|]; [|cbn; lia].
  destruct (length n + 11 <? 256); [|discriminate]. destruct (has_func (n ++ bs "__to_string")); [|cbn; lia]. intros _.
  destruct p; cbn [arg_text]; repeat rewrite app_length; cbn; lia.
Qed.

Lemma type_spec_len t f b : spec_of_type t = Some (f, b) -> length f <= 3.
Proof.
  unfold spec_of_type. repeat match goal with |- context [if ?c then _ else _] => destruct c end;
    try discriminate; intros E; injection E as <- _; cbn; lia.
Qed.
Lemma literal_spec_len t f : spec_of_literal t = Some f -> length f <= 3.
Proof.
  unfold spec_of_literal. destruct t as [|c t]; [discriminate|].
  repeat match goal with |- context [if ?c then _ else _] => destruct c end;
    try discriminate; intros E; injection E as <-; cbn; lia.
Qed.
Lemma render_len t p : arg_piece p -> length (render emit t (stmt_of p)) <= cost expr struct_of emit p.
Proof.
  pose proof (target_len t) as T. destruct p as [x v|src e fmt]; cbn [arg_piece stmt_of cost].
  - intros _. cbn [render]. pose proof (esc_length x). repeat rewrite app_length. rewrite T. cbn. unfold bytes in *. lia.
  - intros A. apply arg_len in A. unfold choose, Print_Model.choose.
    assert (K4 : match struct_of e with Some (n, _) => 4 * length n | None => 0 end =
      2 * match struct_of e with Some (n, _) => 2 * length n | None => 0 end) by (destruct (struct_of e) as [[n b]|]; lia).
    rewrite K4. clear K4. set (K := match struct_of e with Some (n, _) => 2 * length n | None => 0 end) in *.
    set (A0 := arg_text emit (arg_of e)) in *.
    assert (C : forall f, length f <= 3 -> length (render emit t (Conv f (arg_of e))) <= length (emit e) + K + 90).
    { intros f Lf. cbn [render]. fold A0. repeat rewrite app_length. rewrite T. cbn. unfold bytes in *. lia. }
    assert (CB : length (render emit t (ConvBool (arg_of e))) <= length (emit e) + K + 100).
    { cbn [render]. fold A0. repeat rewrite app_length. rewrite T. cbn. unfold bytes in *. lia. }
    assert (CG : length (render emit t (Generic (arg_of e))) <= 2 * length (emit e) + 2 * K + 160).
    { cbn [render]. fold A0. repeat rewrite app_length. rewrite T. cbn. unfold bytes in *. lia. }
    destruct fmt as [f|].
    + cbn [render]. fold A0. repeat rewrite app_length. rewrite T. cbn. unfold bytes in *. lia.
    + assert (CL : length (render emit t (match spec_of_literal (clean src) with Some f => Conv f (arg_of e) | None => Generic (arg_of e) end)) <= 2 * length (emit e) + 2 * K + 160).
      { destruct (spec_of_literal (clean src)) as [f|] eqn:El; [|exact CG]. apply literal_spec_len in El. specialize (C f El). lia. }
      destruct (inferred_type (clean src) e) as [ty|]; [|lia].
      destruct (spec_of_type ty) as [[f [|]]|] eqn:Ef; [lia| |lia].
      apply type_spec_len in Ef. specialize (C f Ef). lia.
Qed.
Lemma renders_len t ps : Forall arg_piece ps -> length (flat_map (render emit t) (map stmt_of ps)) <= total_cost expr struct_of emit ps.
Proof.
  unfold total_cost. induction 1 as [|p ps A F IH]; cbn [map flat_map list_sum fold_right length]; [lia|].
  rewrite app_length. apply (render_len t) in A. unfold list_sum in *. cbn [fold_right]. unfold bytes in *. lia.
Qed.
Lemma sugar_ok ps nl t : Forall piece_ok ps -> Forall arg_piece ps -> no_adjacent expr ps ->
  (N.of_nat (total_cost expr struct_of emit ps) + 40 < 8192)%N ->
  process_printf_sugar parse_expression inferred_type struct_of has_func emit (flat_map show ps) nl t =
  Ok (map stmt_of ps ++ [if nl then Newline else Flush]).
Proof.
  intros F A NA C. unfold process_printf_sugar. rewrite loop_ok by assumption. cbn [bind].
  pose proof (renders_len t ps A) as L. rewrite !app_length, flat_map_app, app_length.
  assert (L2 : length (flat_map (render emit t) [if nl then Newline else Flush]) <= 23).
  { destruct nl, t; cbn; lia. }
  change (length (bs "({ ")) with 3. change (length (bs "0; })")) with 5. unfold bytes in *.
  match goal with |- context [(?a <? 8192)%N] => destruct (N.ltb_spec a 8192) end; [reflexivity|lia].
Qed.

(** ** Running the statements *)
Lemma no_method_arg e : no_method expr struct_of has_func e -> rewrite_arg e = Ok (Plain e).
Proof.
  unfold no_method, Print_Model.rewrite_arg. intros [->|(n & p & -> & Ln & H)]; [reflexivity|]. rewrite H.
  now destruct (Nat.ltb_spec (length n + 11) 256); [|lia].
Qed.
Lemma method_arg e n p : has_method expr struct_of has_func e n p -> rewrite_arg e = Ok (ToString n p e).
Proof.
  unfold has_method, Print_Model.rewrite_arg. intros (-> & Ln & ->). now destruct (Nat.ltb_spec (length n + 11) 256); [|lia].
Qed.
Lemma no_method_of e : no_method expr struct_of has_func e -> arg_ok e /\ arg_of e = Plain e.
Proof. intros H. unfold arg_ok, arg_of. now rewrite (no_method_arg e H). Qed.
Lemma method_of e n p : has_method expr struct_of has_func e n p -> arg_ok e /\ arg_of e = ToString n p e.
Proof. intros H. unfold arg_ok, arg_of. now rewrite (method_arg e n p H). Qed.

(** The table of conversions fits the table of types. *)
Definition good : list (ctype * bytes * bool) :=
  [(TBool, bs "%s", true); (TChar, bs "%c", false); (TSChar, bs "%d", false); (TUChar, bs "%u", false);
   (TShort, bs "%d", false); (TUShort, bs "%u", false); (TUShort, bs "%d", false); (TInt, bs "%d", false);
   (TUInt, bs "%u", false); (TLong, bs "%ld", false); (TULong, bs "%lu", false); (TFloat, bs "%f", false);
   (TDouble, bs "%f", false); (TStr, bs "%s", false)].
Definition ct_eqb (a b : ctype) : bool :=
  match a, b with
  | TBool, TBool | TChar, TChar | TSChar, TSChar | TUChar, TUChar | TShort, TShort | TUShort, TUShort | TInt, TInt | TUInt, TUInt
  | TLong, TLong | TULong, TULong | TLLong, TLLong | TULLong, TULLong | TFloat, TFloat | TDouble, TDouble | TStr, TStr
  | TVoidPtr, TVoidPtr | TPtr, TPtr | TOther, TOther => true
  | _, _ => false
  end.
Lemma ct_eqb_true a b : ct_eqb a b = true -> a = b.
Proof. destruct a, b; (reflexivity || discriminate). Qed.
Lemma names_good n t : In (n, t) type_names -> exists f b, spec_of_type n = Some (f, b) /\ In (t, f, b) good.
Proof.
  assert (A : forallb (fun nt => match spec_of_type (fst nt) with
      | Some (f, b) => existsb (fun g => ct_eqb (snd nt) (fst (fst g)) && beq_bytes f (snd (fst g)) && Bool.eqb b (snd g)) good
      | None => false end) type_names = true) by (vm_compute; reflexivity).
  rewrite forallb_forall in A. intros I. specialize (A _ I). cbn [fst snd] in A.
  destruct (spec_of_type n) as [[f b]|]; [|discriminate]. exists f, b. split; [reflexivity|].
  apply existsb_exists in A as ([[t' f'] b'] & I' & E). cbn [fst snd] in E. rewrite !andb_true_iff in E. destruct E as [[E1 E2] E3].
  apply ct_eqb_true in E1. apply beq_bytes_true in E2. apply Bool.eqb_prop in E3. congruence.
Qed.
Lemma one_of_in l n : is_one_of l n = true -> In n l.
Proof. unfold is_one_of. intros H. apply existsb_exists in H as (x & I & E). apply beq_bytes_true in E. congruence. Qed.
Lemma star_ends n : ends_with_star n = true -> In 42%N n.
Proof.
  unfold ends_with_star. destruct (rev n) as [|c r] eqn:E; [discriminate|]. intros H. apply N.eqb_eq in H as ->.
  apply in_rev. rewrite E. now left.
Qed.
Lemma strstr_occurs s p k : strstr s p = Some k -> occurs p s.
Proof.
  revert k. induction s as [|c s IH]; intros k; cbn [strstr].
  - destruct (is_prefix p []) eqn:P; [|discriminate]. intros _. apply is_prefix_spec in P as [r E]. exists [], r. exact E.
  - destruct (is_prefix p (c :: s)) eqn:P; [intros _; apply is_prefix_spec in P as [r ->]; exists [], r; reflexivity|].
    destruct (strstr s p) as [j|] eqn:J; [|discriminate]. intros _. destruct (IH j eq_refl) as (a & b & ->). exists (c :: a), b. reflexivity.
Qed.
Ltac not_named H := match goal with
  | |- context [if is_one_of ?l ?n then _ else _] => destruct (is_one_of l n) eqn:?X;
      [exfalso; apply one_of_in in X; apply H; revert X; clear; cbn [In map fst]; intuition (subst; vm_compute; tauto)|]
  | |- context [if beq_bytes ?n ?x then _ else _] => destruct (beq_bytes n x) eqn:?X;
      [exfalso; apply beq_bytes_true in X; apply H; subst; vm_compute; tauto|]
  end.
Lemma unnamed_spec n : ~ In n (map fst type_names) -> ~ In 42%N n -> spec_of_type n = None.
Proof.
  intros H S. unfold spec_of_type.
  assert (K : forall l, forallb (fun x => existsb (beq_bytes x) (map fst type_names)) l = true -> is_one_of l n = false).
  { intros l F. destruct (is_one_of l n) eqn:X; [|reflexivity]. apply one_of_in in X. rewrite forallb_forall in F. apply F in X.
    apply existsb_exists in X as (y & I & E). apply beq_bytes_true in E. subst y. now destruct H. }
  assert (K1 : forall x, existsb (beq_bytes x) (map fst type_names) = true -> beq_bytes n x = false).
  { intros x F. destruct (beq_bytes n x) eqn:X; [|reflexivity]. apply beq_bytes_true in X. subst x.
    apply existsb_exists in F as (y & I & E). apply beq_bytes_true in E. subst y. now destruct H. }
  rewrite !K1 by (vm_compute; reflexivity). rewrite !K by (vm_compute; reflexivity).
  destruct (ends_with_star n) eqn:E; [now destruct (S (star_ends n E))|]. cbn [orb andb].
  destruct (existsb (N.eqb 42) n) eqn:X; [|reflexivity]. apply existsb_exists in X as (y & I & Y). apply N.eqb_eq in Y. subst y. now destruct S.
Qed.
Lemma pointer_spec n : In 42%N n -> ~ occurs (bs "char") n -> spec_of_type n = Some (bs "%p", false).
Proof.
  intros S H. unfold spec_of_type.
  assert (Y : existsb (N.eqb 42) n = true) by (apply existsb_exists; exists 42%N; split; [assumption|reflexivity]).
  assert (K : forall l, forallb (fun x => negb (existsb (N.eqb 42) x)) l = true -> is_one_of l n = false).
  { intros l F. destruct (is_one_of l n) eqn:X; [|reflexivity]. apply one_of_in in X. rewrite forallb_forall in F. apply F in X.
    apply negb_true_iff in X. congruence. }
  assert (K1 : forall x, existsb (N.eqb 42) x = false -> beq_bytes n x = false).
  { intros x F. destruct (beq_bytes n x) eqn:X; [|reflexivity]. apply beq_bytes_true in X. congruence. }
  rewrite !K1 by (vm_compute; reflexivity). rewrite !K by (vm_compute; reflexivity).
  destruct (strstr n (bs "char")) as [k|] eqn:E; [now destruct (H (strstr_occurs _ _ _ E))|]. rewrite andb_false_r. cbn [orb].
  now rewrite Y.
Qed.
Lemma literal_none s0 : no_literal s0 -> spec_of_literal s0 = None.
Proof.
  destruct s0 as [|c r]; [reflexivity|]. cbn. intros (A & B & C & E).
  destruct (N.leb_spec 48 c), (N.leb_spec c 57), (N.eqb_spec c 45), (N.eqb_spec c 34), (N.eqb_spec c 39); cbn; try reflexivity; try congruence; lia.
Qed.

Variable world real : Type.
Variable decode : bytes -> bytes.
Variable eval : expr -> world -> cval real * world.
Variable method : bytes -> expr -> world -> bytes * world.
Variable libc : bytes -> cval real -> option bytes.
Variable decimal : Z -> bytes.
Variable fixed : real -> bytes.
Variable addr : N -> bytes.
Notation writes := (writes expr world real inferred_type struct_of has_func eval method libc decimal fixed addr).
Notation writes_all := (writes_all expr world real inferred_type struct_of has_func eval method libc decimal fixed addr).

Hypothesis D : forall s v, Denotes c_plain s v -> decode s = v.
Hypothesis L : libc_ok decimal fixed addr libc.
Notation exec1 := (exec1 decode eval method libc).
Notation exec := (exec decode eval method libc).
Notation value_text := (value_text decimal fixed addr).

Lemma generic_ok t w w' v a : eval_arg eval method a w = (v, w') -> wf_value v -> ~ In (typeof v) [TSChar; TPtr; TOther] ->
  exec1 t w (Generic a) = Ok (w', [Wrote t (value_text v)]).
Proof.
  intros E W N. cbn [Print_Model.exec1]. rewrite E. destruct L as (L1 & L2 & L3 & L4 & L5 & L6 & L7 & L8 & L9 & L10 & _).
  destruct v as [ty z|ty r|s|ty x|]; cbn [typeof wf_value is_int In] in *.
  - destruct ty; cbn [z_str z_arg Print_Spec.value_text] in *; try tauto; unfold fprintf;
      [unfold z_bool_str; rewrite L9; destruct (z =? 0)%Z; reflexivity|rewrite L7 by (cbn; tauto); reflexivity|
       rewrite L2 by (cbn; tauto); reflexivity|rewrite L1 by (cbn; tauto); reflexivity|rewrite L2 by (cbn; tauto); reflexivity|
       rewrite L1 by (cbn; tauto); reflexivity|rewrite L2 by (cbn; tauto); reflexivity|rewrite L3; reflexivity|rewrite L4; reflexivity|
       rewrite L5; reflexivity|rewrite L6; reflexivity].
  - destruct W as [-> | ->]; cbn [z_str z_arg Print_Spec.value_text]; unfold fprintf; now rewrite L8.
  - cbn [z_str z_arg Print_Spec.value_text]; unfold fprintf; now rewrite L9.
  - destruct W as [-> | ->]; [|tauto]. cbn [z_str z_arg Print_Spec.value_text]; unfold fprintf; now rewrite L10.
  - tauto.
Qed.
Lemma good_ok t w w' v e f b : eval e w = (v, w') -> wf_value v -> In (typeof v, f, b) good ->
  exec1 t w (if b then ConvBool (Plain e) else Conv f (Plain e)) = Ok (w', [Wrote t (value_text v)]).
Proof.
  intros E W G. destruct L as (L1 & L2 & L3 & L4 & L5 & L6 & L7 & L8 & L9 & L10 & _).
  assert (X : forall f, libc f v = Some (value_text v) -> exec1 t w (Conv f (Plain e)) = Ok (w', [Wrote t (value_text v)])).
  { intros f0 H. cbn [Print_Model.exec1 eval_arg]. rewrite E. unfold fprintf. now rewrite H. }
  destruct v as [ty z|ty r|s|ty x|]; cbn [typeof wf_value is_int] in *.
  - destruct ty; try destruct W; cbn [In good] in G;
      repeat (destruct G as [G|G]; [try discriminate G; injection G as <- <-|]); try destruct G; try apply X; cbn [Print_Spec.value_text];
      first [apply L1; cbn; tauto | apply L2; cbn; tauto | apply L3 | apply L4 | apply L7; cbn; tauto | idtac].
    cbn [Print_Model.exec1 eval_arg]. rewrite E. unfold fprintf, z_bool_str. rewrite L9. now destruct (z =? 0)%Z.
  - destruct W as [-> | ->]; cbn [In good] in G;
      repeat (destruct G as [G|G]; [try discriminate G; injection G as <- <-|]); try destruct G; apply X; apply L8.
  - cbn [In good] in G; repeat (destruct G as [G|G]; [try discriminate G; injection G as <- <-|]); try destruct G; apply X; apply L9.
  - destruct W as [-> | ->]; cbn [In good] in G;
      repeat (destruct G as [G|G]; [try discriminate G; injection G as <- <-|]); try destruct G.
  - cbn [In good] in G; repeat (destruct G as [G|G]; [try discriminate G; injection G as <- <-|]); try destruct G.
Qed.

Lemma exec_piece t p w x w' : piece_ok p -> writes p w x w' -> arg_piece p /\ exec1 t w (stmt_of p) = Ok (w', [Wrote t x]).
Proof.
  intros OK H. pose proof L as (L1 & L2 & L3 & L4 & L5 & L6 & L7 & L8 & L9 & L10 & _).
  destruct H as [tx v w|src s0 e v w w' T E NM W S|src s0 e n s w w' T HM E U NL|src e f v x w w' E NM F|src e n p f s x w w' HM E F];
    cbn [arg_piece stmt_of].
  - split; [exact I|]. cbn [Print_Model.exec1]. rewrite (D (esc tx) v) by (eapply esc_denotes; apply OK). unfold fprintf. now rewrite L9.
  - destruct (no_method_of e NM) as [A ->]. split; [exact A|]. rewrite (clean_text src s0 T). unfold choose, Print_Model.choose.
    destruct S as [(n & -> & I)|[(n & a & ty & -> & S1 & S2 & ->)|(S1 & S2 & S3)]].
    + destruct (names_good _ _ I) as (f & b & -> & G). pose proof (good_ok t w w' v e f b E W G) as X. destruct b; exact X.
    + rewrite (pointer_spec n S1 S2). cbn [Print_Model.exec1 eval_arg]. rewrite E. unfold fprintf. now rewrite L10.
    + assert (Q : match inferred_type s0 e with Some t0 => spec_of_type t0 | None => None end = None).
      { destruct (inferred_type s0 e) as [n|]; [|reflexivity]. destruct S1. now apply unnamed_spec. }
      rewrite Q, (literal_none s0 S2). now apply generic_ok.
  - destruct (method_of e n false HM) as [A ->]. split; [exact A|]. rewrite (clean_text src s0 T). unfold choose, Print_Model.choose.
    assert (Q : match inferred_type s0 e with Some t0 => spec_of_type t0 | None => None end = None).
    { destruct (inferred_type s0 e) as [ty|]; [|reflexivity]. destruct U. now apply unnamed_spec. }
    rewrite Q, (literal_none s0 NL). refine (generic_ok t w w' (VText s) _ _ _ _).
    + cbn [eval_arg]. now rewrite E.
    + exact Logic.I.
    + cbn. intuition discriminate.
  - destruct (no_method_of e NM) as [A ->]. split; [exact A|]. cbn [choose Print_Model.choose Print_Model.exec1 eval_arg]. rewrite E. unfold fprintf. now rewrite F.
  - destruct (method_of e n p HM) as [A ->]. split; [exact A|]. cbn [choose Print_Model.choose Print_Model.exec1 eval_arg]. rewrite E. unfold fprintf. now rewrite F.
Qed.
Lemma exec_pieces t ps w xs w' : Forall piece_ok ps -> writes_all ps w xs w' -> Forall arg_piece ps /\
  forall rest, exec t w (map stmt_of ps ++ rest) = do q <- exec t w' rest; Ok (fst q, map (Wrote t) xs ++ snd q).
Proof.
  intros F H. induction H as [w|p ps w x w1 xs w2 W Ws IH].
  - split; [constructor|]. intros rest. cbn [map app]. destruct (exec t w rest) as [[? ?]| | |]; reflexivity.
  - inversion F as [|? ? OK F']; subst. destruct (IH F') as [A X]. destruct (exec_piece t p w x w1 OK W) as [Ap Xp].
    split; [constructor; assumption|]. intros rest. cbn [map app Print_Model.exec]. rewrite Xp. cbn [bind fst snd]. rewrite X.
    destruct (exec t w2 rest) as [[? ?]| | |]; reflexivity.
Qed.
End Proofs.

(** Stripping the quotes *)
Lemma strip_ok k fs multi c : (multi = true -> (k <> Bang true /\ k <> Bang false /\ k <> Prompt)) ->
  (multi = false -> forall r, c <> 34%N :: r) -> strip k fs (token fs multi c) = Ok c.
Proof.
  intros H1 H2. unfold strip, token. set (off := if fs then 1 else 0).
  assert (So : forall x : bytes, skipn off ((if fs then [102%N] else []) ++ x) = x) by (intros; now destruct fs).
  assert (Lo : length (if fs then [102%N] else []) = off) by now destruct fs.
  rewrite app_length, Lo, So. destruct multi.
  - assert (M : match k with Bang _ | Prompt => false | _ => (off + 6 <=? off + length ([34%N; 34%N; 34%N] ++ c ++ [34%N; 34%N; 34%N])) && is_prefix [34%N; 34%N; 34%N] ([34%N; 34%N; 34%N] ++ c ++ [34%N; 34%N; 34%N]) end = true).
    { destruct (H1 eq_refl) as (A & B & C).
      assert (X : (off + 6 <=? off + length ([34%N; 34%N; 34%N] ++ c ++ [34%N; 34%N; 34%N])) = true).
      { apply Nat.leb_le. rewrite !app_length. cbn. lia. }
      rewrite X. destruct k as [| | | |d|[|]|]; try congruence; reflexivity. }
    rewrite M. rewrite !app_length. cbn [length].
    destruct (Nat.ltb_spec (off + (3 + (length c + 3))) (off + 3 + 3)); [lia|]. f_equal.
    rewrite <- skipn_skipn', So. cbn [app skipn]. replace (off + (3 + (length c + 3)) - (off + 3 + 3)) with (length c) by lia.
    rewrite firstn_app, Nat.sub_diag, firstn_all. cbn. apply app_nil_r.
  - assert (M : match k with Bang _ | Prompt => false | _ => (off + 6 <=? off + length ([34%N] ++ c ++ [34%N])) && is_prefix [34%N; 34%N; 34%N] ([34%N] ++ c ++ [34%N]) end = false).
    { assert (X : (off + 6 <=? off + length ([34%N] ++ c ++ [34%N])) && is_prefix [34%N; 34%N; 34%N] ([34%N] ++ c ++ [34%N]) = false).
      { destruct (is_prefix [34%N; 34%N; 34%N] ([34%N] ++ c ++ [34%N])) eqn:P; [|apply andb_false_r].
        apply is_prefix_spec in P as [r P]. destruct c as [|d c]; [discriminate P|]. cbn [app] in P. injection P as P _. now destruct (H2 eq_refl c); f_equal. }
      destruct k; auto. }
    rewrite M. rewrite !app_length. cbn [length].
    destruct (Nat.ltb_spec (off + (1 + (length c + 1))) (off + 1 + 1)); [lia|]. f_equal.
    rewrite <- skipn_skipn', So. cbn [app skipn]. replace (off + (1 + (length c + 1)) - (off + 1 + 1)) with (length c) by lia.
    rewrite firstn_app, Nat.sub_diag, firstn_all. cbn. apply app_nil_r.
Qed.
