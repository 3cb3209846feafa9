From Verif Require Import Common StrLit_Model StrLit_Spec StrLit_Proofs FStr_Model FStr_Spec.
Local Open Scope nat_scope.

Lemma strchr_at t c r : ~ In c t -> strchr (t ++ c :: r) c = Some (length t).
Proof.
  induction t as [|x t IH]; intros N; cbn [app strchr length].
  - now rewrite N.eqb_refl.
  - destruct (N.eqb_spec x c) as [->|]; [exfalso; apply N; now left|]. rewrite IH; [reflexivity|]. intros X. apply N. now right.
Qed.
Lemma strchr_beyond t c r b : ~ In c t -> strchr (t ++ r) c = Some b -> length t <= b.
Proof.
  revert b. induction t as [|x t IH]; intros b N E; cbn [app strchr length] in *; [lia|].
  destruct (N.eqb_spec x c) as [->|]; [exfalso; apply N; now left|].
  destruct (strchr (t ++ r) c) as [k|] eqn:K; cbn in E; [|discriminate]. injection E as <-.
  enough (length t <= k) by lia. apply IH; auto. intros X. apply N. now right.
Qed.
Lemma strstr_at t r : ~ In 125%N t -> strstr (t ++ 125%N :: 125%N :: r) [125; 125]%N = Some (length t).
Proof.
  induction t as [|x t IH]; intros N; [reflexivity|]. cbn [app length]. cbn [strstr is_prefix].
  destruct (N.eqb_spec 125 x) as [<-|]; [exfalso; apply N; now left|]. cbn [andb].
  rewrite IH; [reflexivity|]. intros X. apply N. now right.
Qed.
Lemma strstr_beyond t r b : ~ In 125%N t -> strstr (t ++ r) [125; 125]%N = Some b -> length t <= b.
Proof.
  revert b. induction t as [|x t IH]; intros b N E; [cbn [length]; lia|]. cbn [app length] in *. cbn [strstr is_prefix] in E.
  destruct (N.eqb_spec 125 x) as [<-|]; [exfalso; apply N; now left|]. cbn [andb] in E.
  destruct (strstr (t ++ r) [125; 125]%N) as [k|] eqn:K; cbn in E; [|discriminate]. injection E as <-.
  enough (length t <= k) by lia. apply IH; auto. intros X. apply N. now right.
Qed.

Lemma find_colon_none s : paired s -> no_brace s -> find_colon 1 s = None.
Proof.
  induction 1 as [|c r N P IH|r P IH]; intros [A B]; [reflexivity|..].
  - cbn [find_colon]. destruct (N.eqb_spec c 123) as [->|]; [exfalso; apply A; now left|].
    destruct (N.eqb_spec c 125) as [->|]; [exfalso; apply B; now left|].
    destruct (N.eqb_spec c 58); [contradiction|]. rewrite andb_false_r. rewrite IH; [reflexivity|].
    split; intros X; [apply A|apply B]; now right.
  - change (find_colon 1 (58%N :: 58%N :: r)) with (option_map (fun n => S (S n)) (find_colon 1 r)). rewrite IH; [reflexivity|]. split; intros X; [apply A|apply B]; right; now right.
Qed.
Lemma find_colon_some s f : paired s -> no_brace s -> f <> [] -> ~ (exists r, f = 58%N :: r) ->
  find_colon 1 (s ++ 58%N :: f) = Some (length s).
Proof.
  intros P NB NF N58. induction P as [|c r N P IH|r P IH]; destruct NB as [A B]; cbn [app length].
  - destruct f as [|d f]; [congruence|]. change (find_colon 1 (58%N :: d :: f)) with (if (d =? 58)%N then option_map (fun n => S (S n)) (find_colon 1 f) else Some 0).
    destruct (N.eqb_spec d 58) as [->|]; [exfalso; eauto|reflexivity].
  - cbn [find_colon]. destruct (N.eqb_spec c 123) as [->|]; [exfalso; apply A; now left|].
    destruct (N.eqb_spec c 125) as [->|]; [exfalso; apply B; now left|].
    destruct (N.eqb_spec c 58); [contradiction|]. rewrite andb_false_r. rewrite IH; [reflexivity|].
    split; intros X; [apply A|apply B]; now right.
  - change (find_colon 1 (58%N :: 58%N :: r ++ 58%N :: f)) with (option_map (fun n => S (S n)) (find_colon 1 (r ++ 58%N :: f))). rewrite IH; [reflexivity|]. split; intros X; [apply A|apply B]; right; now right.
Qed.

Section P.
Variable expr : Type.
Variable parse : bytes -> option (expr * bytes).

Definition stmt_of (p : piece expr) : stmt expr :=
  match p with
  | PText t _ => CatText (esc t)
  | POpen => CatText [123]%N
  | PClose => CatText [125]%N
  | PExpr _ e f => CatExpr e (option_map (cons 37%N) f)
  end.

Lemma cat_text_ok t : t <> [] -> @cat_text expr t = Ok [CatText (esc t)].
Proof. intros N. unfold cat_text. destruct t; [congruence|]. cbn [length Nat.ltb Nat.leb]. rewrite escape_ok. reflexivity. Qed.
Lemma cat_text_nil : @cat_text expr [] = Ok [].
Proof. reflexivity. Qed.

(** Rest after an optional text: what the loop does with a text followed by a brace piece *)
Definition pre (t : bytes) : list (stmt expr) := match t with [] => [] | _ => [CatText (esc t)] end.
Lemma cat_text_pre t : @cat_text expr t = Ok (pre t).
Proof. destruct t; [reflexivity|]. apply cat_text_ok. discriminate. Qed.

Lemma loop_close fuel t r after : no_brace t ->
  fstring_loop parse (S fuel) (t ++ 125%N :: 125%N :: r) after =
  do x <- fstring_loop parse fuel r after; Ok (pre t ++ CatText [125]%N :: x).
Proof.
  intros [A B]. cbn [fstring_loop]. 
  destruct (Nat.eqb_spec (length (t ++ 125%N :: 125%N :: r)) 0) as [E|_]; [rewrite app_length in E; cbn in E; lia|].
  replace ((t ++ 125%N :: 125%N :: r) ++ after) with (t ++ 125%N :: 125%N :: (r ++ after)) by (now rewrite <- app_assoc).
  rewrite strstr_at by assumption.
  assert (BF : (match strchr (t ++ 125%N :: 125%N :: r ++ after) 123 with None => true | Some b => length t <? b end) = true).
  { destruct (strchr _ 123) as [b|] eqn:E; [|reflexivity]. apply Nat.ltb_lt.
    replace (t ++ 125%N :: 125%N :: r ++ after) with ((t ++ [125%N]) ++ 125%N :: r ++ after) in E by (now rewrite <- app_assoc).
    apply strchr_beyond in E; [rewrite app_length in E; cbn in E; lia|]. intros X. apply in_app_or in X. destruct X as [X|[X|[]]]; [now apply A|discriminate]. }
  rewrite BF. 
  destruct (Nat.leb_spec (length (t ++ 125%N :: 125%N :: r)) (length t)) as [X|_]; [rewrite app_length in X; cbn in X; lia|].
  cbn [andb]. rewrite BF.
  rewrite firstn_app, Nat.sub_diag, firstn_O, firstn_all, app_nil_r. rewrite cat_text_pre. cbn [bind].
  rewrite skipn_app. rewrite (skipn_all2 t) by lia. replace (length t + 2 - length t) with 2 by lia. reflexivity.
Qed.
Lemma not_before (t r : bytes) (c : N) after : no_brace t ->
  (match (match strstr (t ++ 123%N :: r ++ after) [125; 125]%N with
          | Some d => if (d <? length t) && (length (t ++ 123%N :: r) <=? d) then None else Some d
          | None => None end) with Some d => if d <? length t then Some d else None | None => None end) = None.
Proof.
  intros [A B]. destruct (strstr _ _) as [d|] eqn:E; [|reflexivity]. apply strstr_beyond in E; [|assumption].
  destruct (Nat.ltb_spec d (length t)); [lia|]. cbn [andb]. destruct (Nat.ltb_spec d (length t)); [lia|reflexivity].
Qed.
Lemma loop_open fuel t r after : no_brace t ->
  fstring_loop parse (S fuel) (t ++ 123%N :: 123%N :: r) after =
  do x <- fstring_loop parse fuel r after; Ok (pre t ++ CatText [123]%N :: x).
Proof.
  intros NB. pose proof NB as [A B]. cbn [fstring_loop]. 
  destruct (Nat.eqb_spec (length (t ++ 123%N :: 123%N :: r)) 0) as [E|_]; [rewrite app_length in E; cbn in E; lia|].
  replace ((t ++ 123%N :: 123%N :: r) ++ after) with (t ++ 123%N :: (123%N :: r) ++ after) by (now rewrite <- app_assoc).
  rewrite strchr_at by assumption.
  pose proof (not_before t (123%N :: r) 0%N after NB) as BF. rewrite BF.
  destruct (Nat.leb_spec (length (t ++ 123%N :: 123%N :: r)) (length t)) as [X|_]; [rewrite app_length in X; cbn in X; lia|].
  rewrite firstn_app, Nat.sub_diag, firstn_O, firstn_all, app_nil_r. rewrite cat_text_pre. cbn [bind].
  rewrite !skipn_app. rewrite !(skipn_all2 t) by lia. replace (length t + 2 - length t) with 2 by lia. replace (length t + 1 - length t) with 1 by lia.
  cbn [skipn app is_prefix N.eqb Pos.eqb andb].
  destruct (Nat.ltb_spec (length t + 1) (length (t ++ 123%N :: 123%N :: r))) as [_|X]; [|rewrite app_length in X; cbn in X; lia].
  reflexivity.
Qed.
Lemma loop_text fuel t after : no_brace t -> t <> [] -> fstring_loop parse (S fuel) t after = Ok [CatText (esc t)].
Proof.
  intros [A B] NE. cbn [fstring_loop]. destruct (Nat.eqb_spec (length t) 0) as [E|_]; [destruct t; [congruence|discriminate]|].
  assert (E1 : match strstr (t ++ after) [125; 125]%N with Some d => length t <= d | None => True end).
  { destruct (strstr (t ++ after) [125; 125]%N) eqn:E; [|exact I]. eapply strstr_beyond; eassumption. }
  assert (E2 : match strchr (t ++ after) 123%N with Some d => length t <= d | None => True end).
  { destruct (strchr (t ++ after) 123%N) eqn:E; [|exact I]. eapply strchr_beyond; [exact A|exact E]. }
  destruct (strstr (t ++ after) [125; 125]%N) as [d|]; destruct (strchr (t ++ after) 123%N) as [b|].
  - destruct (Nat.leb_spec (length t) b); [|lia]. destruct (Nat.leb_spec (length t) d); [|lia].
    destruct (Nat.ltb_spec d b); cbn [andb].
    + now apply cat_text_ok.
    + destruct (Nat.ltb_spec d b); [lia|]. now apply cat_text_ok.
  - destruct (Nat.leb_spec (length t) d); [|lia]. cbn [andb]. now apply cat_text_ok.
  - destruct (Nat.leb_spec (length t) b); [|lia]. now apply cat_text_ok.
  - now apply cat_text_ok.
Qed.
Lemma loop_expr fuel t inner ex r after rest : no_brace t -> ~ In 125%N inner -> (forall x, inner <> 123%N :: x) ->
  parse (inner ++ 125%N :: r ++ after) = Some (ex, rest) -> stops_well rest = true ->
  fstring_loop parse (S fuel) (t ++ 123%N :: inner ++ 125%N :: r) after =
  do x <- fstring_loop parse fuel r after;
  Ok (pre t ++ CatExpr ex (match find_colon 1 inner with Some k => Some (37%N :: skipn (k + 1) inner) | None => None end) :: x).
Proof.
  intros NB NI NO PE SW. pose proof NB as [A B]. cbn [fstring_loop]. 
  destruct (Nat.eqb_spec (length (t ++ 123%N :: inner ++ 125%N :: r)) 0) as [E|_]; [rewrite app_length in E; cbn in E; lia|].
  replace ((t ++ 123%N :: inner ++ 125%N :: r) ++ after) with (t ++ 123%N :: (inner ++ 125%N :: r) ++ after) by (rewrite <- (app_assoc t); reflexivity).
  rewrite strchr_at by assumption.
  pose proof (not_before t (inner ++ 125%N :: r) 0%N after NB) as BF. rewrite BF.
  destruct (Nat.leb_spec (length (t ++ 123%N :: inner ++ 125%N :: r)) (length t)) as [X|_]; [rewrite app_length in X; cbn in X; lia|].
  rewrite firstn_app, Nat.sub_diag, firstn_O, firstn_all, app_nil_r. rewrite cat_text_pre. cbn [bind].
  rewrite !skipn_app. rewrite !(skipn_all2 t) by lia. rewrite Nat.sub_diag. replace (length t + 1 - length t) with 1 by lia.
  cbn [skipn app].
  assert (PF : is_prefix [123%N] (inner ++ 125%N :: r) = false).
  { destruct inner as [|c inner]; [reflexivity|]. cbn [app is_prefix]. destruct (N.eqb_spec 123 c) as [<-|]; [|reflexivity]. now destruct (NO inner). }
  rewrite PF, andb_false_r.
  replace ((inner ++ 125%N :: r) ++ after) with (inner ++ 125%N :: r ++ after) by (rewrite <- (app_assoc inner); reflexivity).
  assert (SC : strchr (123%N :: inner ++ 125%N :: r ++ after) 125 = Some (S (length inner))).
  { cbn [strchr N.eqb Pos.eqb]. rewrite strchr_at by assumption. reflexivity. }
  rewrite SC.
  destruct (Nat.leb_spec (length (t ++ 123%N :: inner ++ 125%N :: r)) (length t + S (length inner))) as [X|_].
  { rewrite app_length in X. cbn [length] in X. rewrite app_length in X. cbn in X. lia. }
  rewrite PE, SW. replace (length t + S (length inner) - (length t + 1)) with (length inner) by lia.
  rewrite firstn_app, Nat.sub_diag, firstn_O, firstn_all, app_nil_r.
  rewrite skipn_app. replace (length t + S (length inner) + 1 - length t) with (S (S (length inner))) by lia.
  rewrite (skipn_all2 t) by lia. change ([] ++ skipn (S (S (length inner))) (123%N :: inner ++ 125%N :: r)) with (skipn (S (length inner)) (inner ++ 125%N :: r)).
  rewrite skipn_app. rewrite skipn_all2 by lia. replace (S (length inner) - length inner) with 1 by lia. reflexivity.
Qed.

Lemma loop_reject fuel t inner ex r after rest : no_brace t -> ~ In 125%N inner -> (forall x, inner <> 123%N :: x) ->
  parse (inner ++ 125%N :: r ++ after) = Some (ex, rest) -> stops_well rest = false ->
  fstring_loop parse (S fuel) (t ++ 123%N :: inner ++ 125%N :: r) after = Panic.
Proof.
  intros NB NI NO PE SW. pose proof NB as [A B]. cbn [fstring_loop]. 
  destruct (Nat.eqb_spec (length (t ++ 123%N :: inner ++ 125%N :: r)) 0) as [E|_]; [rewrite app_length in E; cbn in E; lia|].
  replace ((t ++ 123%N :: inner ++ 125%N :: r) ++ after) with (t ++ 123%N :: (inner ++ 125%N :: r) ++ after) by (rewrite <- (app_assoc t); reflexivity).
  rewrite strchr_at by assumption.
  pose proof (not_before t (inner ++ 125%N :: r) 0%N after NB) as BF. rewrite BF.
  destruct (Nat.leb_spec (length (t ++ 123%N :: inner ++ 125%N :: r)) (length t)) as [X|_]; [rewrite app_length in X; cbn in X; lia|].
  rewrite firstn_app, Nat.sub_diag, firstn_O, firstn_all, app_nil_r. rewrite cat_text_pre. cbn [bind].
  rewrite !skipn_app. rewrite !(skipn_all2 t) by lia. rewrite Nat.sub_diag. replace (length t + 1 - length t) with 1 by lia.
  cbn [skipn app].
  assert (PF : is_prefix [123%N] (inner ++ 125%N :: r) = false).
  { destruct inner as [|c inner]; [reflexivity|]. cbn [app is_prefix]. destruct (N.eqb_spec 123 c) as [<-|]; [|reflexivity]. now destruct (NO inner). }
  rewrite PF, andb_false_r.
  replace ((inner ++ 125%N :: r) ++ after) with (inner ++ 125%N :: r ++ after) by (rewrite <- (app_assoc inner); reflexivity).
  assert (SC : strchr (123%N :: inner ++ 125%N :: r ++ after) 125 = Some (S (length inner))).
  { cbn [strchr N.eqb Pos.eqb]. rewrite strchr_at by assumption. reflexivity. }
  rewrite SC.
  destruct (Nat.leb_spec (length (t ++ 123%N :: inner ++ 125%N :: r)) (length t + S (length inner))) as [X|_].
  { rewrite app_length in X. cbn [length] in X. rewrite app_length in X. cbn in X. lia. }
  now rewrite PE, SW.
Qed.

Lemma expr_inner src e fmt : piece_ok parse (PExpr src e fmt) -> exists inner,
  show (PExpr src e fmt) = 123%N :: inner ++ [125%N] /\ ~ In 125%N inner /\ (forall x, inner <> 123%N :: x) /\
  (forall r, exists rest, parse (inner ++ 125%N :: r) = Some (e, rest) /\ stops_well rest = true) /\
  (match find_colon 1 inner with Some k => Some (37%N :: skipn (k + 1) inner) | None => None end) = option_map (cons 37%N) fmt.
Proof.
  intros ((A & B) & P & R & F). destruct fmt as [f|].
  - destruct F as (F1 & F2 & F3). exists (src ++ 58%N :: f). splits.
    + cbn [show]. now rewrite <- app_assoc.
    + intros X. apply in_app_or in X. destruct X as [X|[X|X]]; [now apply B|discriminate|now apply F1].
    + intros x E. destruct src as [|c src]; [discriminate|]. injection E as -> _. apply A. now left.
    + intros r. destruct f as [|d f]; [congruence|]. exists (58%N :: d :: f ++ 125%N :: r). split.
      * rewrite <- app_assoc. apply R. right. exists d, (f ++ 125%N :: r). split; [reflexivity|]. intros ->. apply F3. eauto.
      * cbn. destruct (N.eqb_spec d 58) as [->|]; [exfalso; apply F3; eauto|reflexivity].
    + rewrite find_colon_some; auto; [|split; assumption]. cbn [option_map].
      rewrite skipn_app. rewrite skipn_all2 by lia. replace (length src + 1 - length src) with 1 by lia. reflexivity.
  - exists src. splits.
    + reflexivity.
    + assumption.
    + intros x ->. apply A. now left.
    + intros r. exists (125%N :: r). split; [apply R; left; eauto|reflexivity].
    + rewrite find_colon_none; auto. split; assumption.
Qed.

(** One piece that is not text, after an optional text *)
Lemma loop_piece fuel t p r after : no_brace t -> piece_ok parse p -> (forall t v, p <> PText t v) ->
  fstring_loop parse (S fuel) (t ++ show p ++ r) after =
  do x <- fstring_loop parse fuel r after; Ok (pre t ++ stmt_of p :: x).
Proof.
  intros NB OK NT. destruct p as [t' v| | |src e fmt].
  - now destruct (NT t' v).
  - apply loop_open. assumption.
  - apply loop_close. assumption.
  - destruct (expr_inner _ _ _ OK) as (inner & E & NI & NO & PR & FC). rewrite E. cbn [stmt_of]. rewrite <- FC.
    destruct (PR (r ++ after)) as (rest & PE & SW).
    replace (t ++ (123%N :: inner ++ [125%N]) ++ r) with (t ++ 123%N :: inner ++ 125%N :: r).
    2: { cbn [app]. now rewrite <- app_assoc. }
    eapply loop_expr; eassumption.
Qed.

Lemma loop_piece0 fuel p r after : piece_ok parse p -> (forall t v, p <> PText t v) ->
  fstring_loop parse (S fuel) (show p ++ r) after =
  do x <- fstring_loop parse fuel r after; Ok (stmt_of p :: x).
Proof. intros OK NT. apply (loop_piece fuel [] p r after); auto. split; intros []. Qed.

Lemma show_len p : piece_ok parse p -> 1 <= length (show p).
Proof. destruct p as [t v| | |src e [f|]]; cbn; try lia. intros [N _]. destruct t; [congruence|cbn; lia]. Qed.

Lemma loop_pieces ps : forall fuel after, fstring_ok parse ps -> length ps < fuel ->
  fstring_loop parse fuel (flat_map show ps) after = Ok (map stmt_of ps).
Proof.
  assert (G : forall n ps fuel after, length ps <= n -> fstring_ok parse ps -> length ps < fuel ->
    fstring_loop parse fuel (flat_map show ps) after = Ok (map stmt_of ps)).
  { induction n as [|n IH]; intros qs fuel after Ln [F NA] L.
    { destruct qs; [|cbn in Ln; lia]. destruct fuel; [cbn in L; lia|reflexivity]. }
    destruct qs as [|p qs]; [destruct fuel; [cbn in L; lia|reflexivity]|].
    destruct fuel as [|fuel]; [lia|]. inversion F as [|? ? OK F']; subst. cbn [length] in L, Ln. cbn [flat_map map].
    destruct p as [t v| | |src e fmt].
    - destruct qs as [|q qs].
      + cbn [flat_map map app]. rewrite app_nil_r. destruct OK as (NE & NB & _). now apply loop_text.
      + assert (NT : forall t v, q <> PText t v) by (intros t' v' ->; exact NA).
        inversion F' as [|? ? OKq F'']; subst. cbn [flat_map map].
        change (show (PText t v)) with t. rewrite (loop_piece fuel t q _ after) by (auto; apply OK).
        cbn [length] in L, Ln. rewrite IH; [|lia| |lia].
        * cbn [bind]. destruct OK as (NE & _). unfold pre. destruct t; [congruence|reflexivity].
        * split; [assumption|]. destruct q as [t' v'| | |]; [now destruct (NT t' v')|exact NA|exact NA|exact NA].
    - rewrite loop_piece0 by (try assumption; discriminate). rewrite IH; [reflexivity|lia|split; assumption|lia].
    - rewrite loop_piece0 by (try assumption; discriminate). rewrite IH; [reflexivity|lia|split; assumption|lia].
    - rewrite loop_piece0 by (try assumption; discriminate). rewrite IH; [reflexivity|lia|split; assumption|lia]. }
  intros. eapply G; eauto.
Qed.
Lemma block_ok ps after : fstring_ok parse ps -> create_fstring_block parse (flat_map show ps) after = Ok (map stmt_of ps).
Proof.
  intros OK. apply loop_pieces; [assumption|]. destruct OK as [F _]. 
  enough (length ps <= length (flat_map show ps)) by lia.
  induction F as [|p ps OK F IH]; [cbn; lia|]. cbn [flat_map]. rewrite app_length. cbn [length]. apply show_len in OK. unfold bytes in *. lia.
Qed.

Variable decode : bytes -> bytes.
Variable eval : expr -> cval.
Variable fmt : bytes -> cval -> option bytes.
Variable decimal : Z -> bytes.
Hypothesis D : decodes decode.
Hypothesis L : libc_ok decimal fmt.

Definition not_bool (p : piece expr) : Prop :=
  match p with PExpr _ e None => forall b, eval e <> VBool b | _ => True end.

Lemma cstr_nz v : ~ In 0%N v -> cstr v = v.
Proof.
  induction v as [|c v IH]; intros N; [reflexivity|]. cbn. destruct (N.eqb_spec c 0) as [->|]; [exfalso; apply N; now left|].
  f_equal. apply IH. intros X. apply N. now right.
Qed.
Lemma denote1 c : c <> 34%N -> c <> 10%N -> c <> 92%N -> Denotes c_plain [c] [c].
Proof. intros. apply D_char; [split; assumption|assumption|constructor]. Qed.

(** The value of one piece's statement *)
Lemma exec_piece b p x : piece_ok parse p -> not_bool p -> piece_text decimal fmt eval p = Some x ->
  (forall s e f, p = PExpr s e f -> length x < 128) -> ~ In 0%N b -> ~ In 0%N x ->
  exec1 decode eval fmt b (stmt_of p) = if length (b ++ x) <? 4096 then Ok (b ++ x) else UB.
Proof.
  intros OK NBool E SZ Zb Zx. destruct p as [t v| | |src e f]; cbn [stmt_of exec1 piece_text] in *.
  - injection E as <-. unfold strcat_b. rewrite (D (esc t) v) by (eapply esc_denotes; apply OK). now rewrite !cstr_nz by assumption.
  - injection E as <-. unfold strcat_b. rewrite (D [123%N] [123%N]) by (apply denote1; discriminate). now rewrite !cstr_nz by assumption.
  - injection E as <-. unfold strcat_b. rewrite (D [125%N] [125%N]) by (apply denote1; discriminate). now rewrite !cstr_nz by assumption.
  - specialize (SZ _ _ _ eq_refl).
    assert (K : sprintf_t fmt (match option_map (cons 37%N) f with Some f => f | None => z_str (eval e) end) (eval e) = Ok x).
    { unfold sprintf_t. destruct f as [f|]; cbn [option_map].
      - rewrite E. destruct (Nat.ltb_spec (length x) 128); [reflexivity|lia].
      - injection E as <-. cbn [not_bool] in NBool. destruct L as (L1 & L2 & L3 & L4).
        destruct (eval e) as [bb|c|z|s]; cbn [z_str value_text] in *; [now destruct (NBool bb)|rewrite L2|rewrite L1|rewrite L3];
          (match goal with |- context [?a <? 128] => destruct (Nat.ltb_spec a 128); [reflexivity|lia] end). }
    transitivity (do t <- Ok x; strcat_b b t); [f_equal; exact K|]. cbn [bind]. unfold strcat_b. now rewrite !cstr_nz by assumption.
Qed.

Lemma exec_pieces ps : forall b xs, Forall (piece_ok parse) ps -> Forall not_bool ps ->
  map (piece_text decimal fmt eval) ps = map Some xs ->
  (forall s e f x, In (PExpr s e f) ps -> piece_text decimal fmt eval (PExpr s e f) = Some x -> length x < 128) ->
  ~ In 0%N b -> ~ In 0%N (concat xs) -> 
  exec decode eval fmt b (map stmt_of ps) = if (length ps =? 0) || (length (b ++ concat xs) <? 4096) then Ok (b ++ concat xs) else UB.
Proof.
  induction ps as [|p ps IH]; intros b xs F NB E SZ Zb Zx.
  { destruct xs; [|discriminate]. cbn. now rewrite app_nil_r. }
  destruct xs as [|x xs]; [discriminate|]. cbn [map] in E. injection E as E1 E2. inversion F as [|? ? F1 F2]; inversion NB as [|? ? N1 N2]; subst.
  cbn [concat] in Zx. assert (Zx1 : ~ In 0%N x) by (intros X; apply Zx; apply in_or_app; now left).
  assert (Zx2 : ~ In 0%N (concat xs)) by (intros X; apply Zx; apply in_or_app; now right).
  cbn [map exec]. rewrite (exec_piece b p x) by (first [assumption | intros s e f ->; eapply SZ; [now left|exact E1]]).
  cbn [length Nat.eqb orb concat]. rewrite app_assoc.
  destruct (Nat.ltb_spec (length (b ++ x)) 4096) as [Lt|Ge]; cbn [bind].
  - rewrite (IH (b ++ x) xs); auto.
    + destruct ps as [|p' ps]; [|reflexivity]. destruct xs; [|discriminate]. cbn [concat length Nat.eqb orb]. rewrite app_nil_r.
      destruct (Nat.ltb_spec (length (b ++ x)) 4096); [reflexivity|lia].
    + intros s e f y I. apply (SZ s e f y). now right.
    + intros X. apply in_app_or in X. tauto.
  - destruct (Nat.ltb_spec (length ((b ++ x) ++ concat xs)) 4096) as [X|_]; [|reflexivity]. rewrite app_length in X. unfold bytes in *. lia.
Qed.

(** A statement that fails makes the whole fail, wherever it stands, provided no other
    outcome than success or failure comes before it. *)
Lemma exec_bad l s : In s l -> (forall b, exec1 decode eval fmt b s = UB) -> forall b, exec decode eval fmt b l = UB.
Proof.
  induction l as [|x l IH]; intros I H b; [destruct I|]. cbn [exec]. destruct I as [->|I]; [now rewrite H|].
  assert (K : exec1 decode eval fmt b x = UB \/ exists b', exec1 decode eval fmt b x = Ok b').
  { destruct x as [lit|e f]; cbn [exec1].
    - unfold strcat_b. destruct (_ <? 4096); eauto.
    - unfold sprintf_t. destruct (fmt _ _) as [o|]; [|now left]. destruct (length o <? 128); [|now left]. cbn [bind].
      unfold strcat_b. destruct (_ <? 4096); eauto. }
  destruct K as [-> |(b' & ->)]; [reflexivity|]. cbn [bind]. now apply IH.
Qed.
End P.
