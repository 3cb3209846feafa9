(** Proofs about Lisp_Model. *)
From Verif Require Import Common Lisp_Model Lisp_Spec.
Local Open Scope nat_scope.

Scheme le_m := Induction for le Sort Prop with les_m := Induction for les Sort Prop with lbl_m := Induction for lbl Sort Prop.
Combined Scheme le_all from le_m, les_m, lbl_m.

(** * The tree expected *)
Definition f2 (o : op2) : bytes :=
  match o with Add => bs "l_add" | Sub => bs "l_sub" | Mul => bs "l_mul" | Div => bs "l_div" | Lt => bs "l_lt" | Cons => bs "l_cons" end.
Definition f1 (o : op1) : bytes := match o with Car => bs "l_car" | Cdr => bs "l_cdr" end.
Fixpoint comp (e : le) : ce :=
  match e with
  | LNum neg ds => CNum ((if neg then [45%N] else []) ++ ds)
  | LVar x => CSym x
  | LTwo o a b => two (f2 o) (comp a) (comp b)
  | LOne o a => CCall (f1 o) (ECons (comp a) ENil)
  | LIf c a b => CIf (comp c) (comp a) (comp b)
  | LIf1 c a => CIf (comp c) (comp a) CNil
  | LLet b => CLet (comp_block b)
  | LCall f l => CCall f (comp_args l)
  end
with comp_args (l : les) : ces := match l with LEnd => ENil | LArg e l => ECons (comp e) (comp_args l) end
with comp_block (b : lbl) : cbl := match b with LBody e => BBody (ECons (comp e) ENil) | LBind x e b => BDecl x (comp e) (comp_block b) end.
Fixpoint decls (b : lbl) : list (bytes * ce) := match b with LBody _ => [] | LBind x e b => (x, comp e) :: decls b end.
Fixpoint body (b : lbl) : le := match b with LBody e => e | LBind _ _ b => body b end.
Lemma block_decls b : block (decls b) (ECons (comp (body b)) ENil) = comp_block b.
Proof. induction b; cbn; [reflexivity|now rewrite IHb]. Qed.

Fixpoint sz (e : le) : nat :=
  match e with
  | LNum _ _ | LVar _ => 1
  | LTwo _ a b => 2 + sz a + sz b
  | LOne _ a => 2 + sz a
  | LIf c a b => 2 + sz c + sz a + sz b
  | LIf1 c a => 2 + sz c + sz a
  | LLet b => 2 + szb b
  | LCall _ l => 2 + szs l
  end
with szs (l : les) : nat := match l with LEnd => 1 | LArg e l => 1 + sz e + szs l end
with szb (b : lbl) : nat := match b with LBody e => 2 + sz e | LBind _ e b => 1 + sz e + szb b end.
Lemma sz_pos e : 1 <= sz e.
Proof. destruct e; cbn; lia. Qed.
Lemma szb_body b : 2 + sz (body b) <= szb b.
Proof. induction b; cbn; lia. Qed.

(** * Characters *)
Lemma blank_space c : blank c -> is_space c = true.
Proof. unfold blank, is_space. intros [->|H]; [reflexivity|]. apply orb_true_iff; right. apply andb_true_iff; split; apply N.leb_le; lia. Qed.
Lemma letter_not c : letter c \/ figure c -> stop_sym c = false /\ is_space c = false /\ (c =? 45)%N = false /\ (c =? 34)%N = false /\ (c =? 40)%N = false /\ (c =? 41)%N = false.
Proof.
  unfold letter, figure, stop_sym, is_space, close, open. intros H.
  assert (E1 : (c =? 32)%N = false) by (apply N.eqb_neq; lia).
  assert (E2 : (c <=? 13)%N = false) by (apply N.leb_gt; lia).
  assert (E3 : (c =? 45)%N = false) by (apply N.eqb_neq; lia).
  assert (E4 : (c =? 34)%N = false) by (apply N.eqb_neq; lia).
  assert (E5 : (c =? 40)%N = false) by (apply N.eqb_neq; lia).
  assert (E6 : (c =? 41)%N = false) by (apply N.eqb_neq; lia).
  rewrite E1, E2, E3, E4, E5, E6, andb_false_r. now repeat split.
Qed.
Lemma figure_digit c : figure c -> is_digit c = true.
Proof. unfold figure, is_digit. intros H. apply andb_true_iff; split; apply N.leb_le; lia. Qed.
Lemma letter_digit c : letter c -> is_digit c = false.
Proof.
  unfold letter, is_digit. intros H. apply andb_false_iff. destruct (N.leb_spec 48 c); [right; apply N.leb_gt; lia|now left].
Qed.
Lemma stop_digit c : stop_sym c = true -> is_digit c = false.
Proof.
  destruct (is_digit c) eqn:E; [|reflexivity]. unfold is_digit in E. apply andb_true_iff in E as [E1 E2].
  apply N.leb_le in E1, E2. intros H. assert (F : figure c) by (unfold figure; lia).
  destruct (letter_not c (or_intror F)) as [G _]. congruence.
Qed.

Definition ended (p : bytes) : Prop := match p with c :: _ => stop_sym c = true | [] => True end.
Lemma skip_blank w p : Forall blank w -> skip (w ++ p) = skip p.
Proof. induction 1 as [|c w H _ IH]; [reflexivity|]. cbn [app skip]. now rewrite (blank_space _ H). Qed.
Lemma ended_blank w p : Forall blank w -> ended p -> ended (w ++ p).
Proof. destruct 1 as [|c w H]; [easy|]. intros _. cbn. unfold stop_sym. now rewrite (blank_space _ H). Qed.
Lemma ended_w w p : w <> [] -> Forall blank w -> ended (w ++ p).
Proof. intros N. destruct 1 as [|c w H]; [easy|]. cbn. unfold stop_sym. now rewrite (blank_space _ H). Qed.
Lemma ended_close p : ended (bs ")" ++ p).
Proof. reflexivity. Qed.

Lemma upto_run stop l p : Forall (fun c => stop c = false) l -> match p with c :: _ => stop c = true | [] => True end -> upto stop (l ++ p) = (l, p).
Proof.
  intros F H. induction F as [|c l E _ IH].
  - destruct p as [|c p]; [reflexivity|]. cbn. now rewrite H.
  - cbn [app upto]. rewrite E, IH. reflexivity.
Qed.
Lemma identifier_chars x : identifier x -> Forall (fun c => letter c \/ figure c) x.
Proof. destruct x; cbn; [easy|]. intros [L F]. constructor; auto. Qed.
Lemma upto_sym x p : identifier x -> ended p -> upto stop_sym (x ++ p) = (x, p).
Proof.
  intros I E. apply upto_run; [|exact E]. eapply Forall_impl; [|apply (identifier_chars _ I)].
  intros c H. apply (letter_not _ H).
Qed.
Lemma upto_arg x c p : identifier x -> stop_arg c = true -> upto stop_arg (x ++ c :: p) = (x, c :: p).
Proof.
  intros I E. apply upto_run; [|exact E]. eapply Forall_impl; [|apply (identifier_chars _ I)].
  intros d H. destruct (letter_not _ H) as (_ & A & _ & _ & _ & B). unfold stop_arg, close. now rewrite A, B.
Qed.

(** * What is written starts with something *)
Definition starts (p : bytes) : Prop := match p with c :: _ => is_space c = false /\ (c =? close)%N = false | [] => False end.
Lemma starts_app p q : starts p -> starts (p ++ q).
Proof. now destruct p. Qed.
Lemma starts_id x : identifier x -> starts x.
Proof. destruct x as [|c x]; cbn; [easy|]. intros [L _]. destruct (letter_not c (or_introl L)) as (_ & A & _ & _ & _ & B). now split. Qed.
Lemma skip_starts p : starts p -> skip p = p.
Proof. destruct p; cbn; [easy|]. intros [-> _]. reflexivity. Qed.
Section Text.
Variables w w0 : bytes.
Hypothesis LW : layout w w0.
Let W1 : w <> []. Proof. apply LW. Qed.
Let W2 : Forall blank w. Proof. apply LW. Qed.
Let W3 : Forall blank w0. Proof. apply LW. Qed.

Lemma starts_written e : well_written e -> starts (written w w0 e).
Proof.
  destruct e; try (intros _; now split); intros H.
  - destruct H as (N & F & _ & _). destruct neg; [now split|]. destruct ds as [|c ds]; [easy|]. inversion F; subst.
    destruct (letter_not c (or_intror H1)) as (_ & A & _ & _ & _ & B). now split.
  - now apply starts_id.
Qed.
Lemma exprs_close f p : exprs (S f) (bs ")" ++ p) = Ok (ENil, bs ")" ++ p).
Proof. reflexivity. Qed.
Lemma finish_close e w' p : Forall blank w' -> finish e (w' ++ bs ")" ++ p) = Ok (e, p).
Proof.
  intros F. unfold finish. rewrite upto_run; [reflexivity| |reflexivity].
  eapply Forall_impl; [|exact F]. intros c H. unfold blank in H. apply N.eqb_neq. unfold close. lia.
Qed.

Lemma atom_num (neg : bool) ds p : numeral ds -> ended p -> atom (((if neg then bs "-" else []) ++ ds) ++ p) = Ok (CNum ((if neg then [45%N] else []) ++ ds), p).
Proof.
  intros (N & F & _ & _) E.
  assert (U : upto (fun d => negb (is_digit d)) (ds ++ p) = (ds, p)).
  { apply upto_run.
    - eapply Forall_impl; [|exact F]. intros c H. now rewrite (figure_digit _ H).
    - destruct p as [|c p]; [exact I|]. now rewrite (stop_digit _ E). }
  destruct ds as [|c ds]; [easy|]. inversion F; subst. pose proof (figure_digit _ H1) as D.
  destruct (letter_not c (or_intror H1)) as (_ & _ & A & _ & _ & B).
  destruct neg.
  - change (bs "-") with [45%N]. cbn [app] in *. cbn [atom]. change (45 =? close)%N with false. change (is_digit 45) with false.
    change (45 =? 45)%N with true. cbn [andb orb]. rewrite D. rewrite U. reflexivity.
  - cbn [app atom] in *. unfold close. rewrite B, D, A. cbn [orb]. rewrite U. reflexivity.
Qed.
Lemma atom_sym x p : identifier x -> ended p -> atom (x ++ p) = Ok (CSym x, p).
Proof.
  intros I E. pose proof (upto_sym x p I E) as U. destruct x as [|c x]; [easy|]. destruct I as [L _].
  destruct (letter_not c (or_introl L)) as (_ & _ & A & B & C & D). pose proof (letter_digit _ L) as G.
  cbn [app atom]. unfold close. rewrite D, G, A, B. cbn [orb andb]. cbn [app] in U. rewrite U. reflexivity.
Qed.

Lemma expr_starts f p : starts p -> expr (S f) p = match p with c :: r => if (c =? open)%N then lst f r else atom p | [] => Panic end.
Proof. intros H. cbn [expr]. rewrite (skip_starts _ H). now destruct p. Qed.
Lemma expr_paren f t p : expr (S f) (paren w0 t ++ p) = lst f (w0 ++ t ++ w0 ++ bs ")" ++ p).
Proof. unfold paren. rewrite <- !app_assoc. reflexivity. Qed.

Lemma skip_w p : starts p -> skip (w ++ p) = p.
Proof. intros H. rewrite (skip_blank _ _ W2). now apply skip_starts. Qed.
Lemma skip_w0 p : starts p -> skip (w0 ++ p) = p.
Proof. intros H. rewrite (skip_blank _ _ W3). now apply skip_starts. Qed.
Lemma skip_w0_close p : skip (w0 ++ bs ")" ++ p) = bs ")" ++ p.
Proof. now rewrite (skip_blank _ _ W3). Qed.

(** ** Names of operations *)
Lemma upto_op2 o p : ended p -> upto stop_sym (name2 o ++ p) = (name2 o, p).
Proof. intros E. apply upto_run; [|exact E]. destruct o; repeat constructor. Qed.
Lemma upto_op1 o p : ended p -> upto stop_sym (name1 o ++ p) = (name1 o, p).
Proof. intros E. apply upto_run; [|exact E]. destruct o; repeat constructor. Qed.
Lemma upto_if p : ended p -> upto stop_sym (bs "if" ++ p) = (bs "if", p).
Proof. intros E. apply upto_run; [|exact E]. repeat constructor. Qed.
Lemma upto_let p : ended p -> upto stop_sym (bs "let" ++ p) = (bs "let", p).
Proof. intros E. apply upto_run; [|exact E]. repeat constructor. Qed.

(** lst behind its name *)
Definition lst_rest (fuel : nat) (op p : bytes) : res (ce * bytes) :=
      match arith_name op, compare_name op with
      | Some f, _ =>
        do '(a, p) <- expr fuel (skip p); do '(b, p) <- expr fuel (skip p);
        do p <- skip_args (S (length p)) (skip p); finish (two f a b) p
      | None, Some f => do '(a, p) <- expr fuel (skip p); do '(b, p) <- expr fuel (skip p); finish (two f a b) p
      | None, None =>
        if beq_bytes op (bs "cons") then
          do '(a, p) <- expr fuel (skip p); do '(b, p) <- expr fuel (skip p); finish (two (bs "l_cons") a b) p
        else if beq_bytes op (bs "car") then do '(a, p) <- expr fuel (skip p); finish (CCall (bs "l_car") (ECons a ENil)) p
        else if beq_bytes op (bs "cdr") then do '(a, p) <- expr fuel (skip p); finish (CCall (bs "l_cdr") (ECons a ENil)) p
        else if beq_bytes op (bs "list") then finish CNil p
        else if is_prefix (bs "print") op then
          let nl := match skipn 5 op with c :: _ => (c =? 108)%N | [] => false end in
          match skip p with
          | c :: r => if (c =? 34)%N then let '(t, r) := quoted r in finish (CPrintf t nl) r
                      else do '(a, r) <- expr fuel (c :: r); finish (CPrint a nl) r
          | [] => do '(a, r) <- expr fuel []; finish (CPrint a nl) r
          end
        else if beq_bytes op (bs "if") then
          do '(c, p) <- expr fuel (skip p); do '(a, p) <- expr fuel (skip p);
          match skip p with
          | d :: r => if (d =? close)%N then finish (CIf c a CNil) (d :: r) else do '(b, r) <- expr fuel (d :: r); finish (CIf c a b) r
          | [] => do '(b, r) <- expr fuel []; finish (CIf c a b) r
          end
        else if beq_bytes op (bs "let") then
          do '(vs, p) <- match skip p with
                         | c :: r =>
                           if (c =? open)%N then
                             do '(vs, r) <- binds fuel (skip r);
                             match r with [] => Panic | _ :: r => Ok (vs, r) end
                           else Ok ([], c :: r)
                         | [] => Ok ([], [])
                         end;
          do '(l, p) <- exprs fuel (skip p); finish (CLet (block vs l)) p
        else do '(l, p) <- exprs fuel (skip p); finish (CCall op l) p
      end.
Lemma lst_op f op p : starts op -> upto stop_sym (op ++ p) = (op, p) -> lst (S f) (w0 ++ op ++ p) = lst_rest f op p.
Proof.
  intros H U. cbn [lst]. rewrite skip_w0 by now apply starts_app.
  destruct (op ++ p) eqn:E; [destruct op; [easy|discriminate]|]. rewrite U. reflexivity.
Qed.

Lemma lst_two f o a b r p q p' :
  expr f (skip p) = Ok (a, q) -> expr f (skip q) = Ok (b, w0 ++ bs ")" ++ r) -> p' = p -> lst_rest f (name2 o) p' = Ok (two (f2 o) a b, r).
Proof.
  intros A B ->. destruct o; unfold lst_rest; cbn [arith_name compare_name name2];
    match goal with |- context [arith_name ?x] => let y := eval vm_compute in (arith_name x) in change (arith_name x) with y end;
    match goal with |- context [compare_name ?x] => let y := eval vm_compute in (compare_name x) in change (compare_name x) with y end; cbv iota.
  1-4: rewrite A; cbn [bind]; rewrite B; cbn [bind]; rewrite skip_w0_close; cbn [skip_args app]; change (bs ")") with [41%N]; cbn [app];
    change (41 =? close)%N with true; cbv iota; cbn [bind]; apply (finish_close _ []); constructor.
  - rewrite A; cbn [bind]; rewrite B; cbn [bind]. now apply finish_close.
  - match goal with |- context [beq_bytes ?x ?y] => change (beq_bytes x y) with true end. cbv iota. rewrite A; cbn [bind]; rewrite B; cbn [bind]. now apply finish_close.
Qed.
Lemma lst_one f o a r p : expr f (skip p) = Ok (a, w0 ++ bs ")" ++ r) -> lst_rest f (name1 o) p = Ok (CCall (f1 o) (ECons a ENil), r).
Proof.
  intros A. destruct o.
  - change (lst_rest f (name1 Car) p) with (do '(a, p) <- expr f (skip p); finish (CCall (bs "l_car") (ECons a ENil)) p).
    rewrite A. cbn [bind]. now apply finish_close.
  - change (lst_rest f (name1 Cdr) p) with (do '(a, p) <- expr f (skip p); finish (CCall (bs "l_cdr") (ECons a ENil)) p).
    rewrite A. cbn [bind]. now apply finish_close.
Qed.
Lemma lst_if f p : lst_rest f (bs "if") p =
  do '(c, p) <- expr f (skip p); do '(a, p) <- expr f (skip p);
  match skip p with
  | d :: r => if (d =? close)%N then finish (CIf c a CNil) (d :: r) else do '(b, r) <- expr f (d :: r); finish (CIf c a b) r
  | [] => do '(b, r) <- expr f []; finish (CIf c a b) r
  end.
Proof. reflexivity. Qed.
Lemma lst_let f p : lst_rest f (bs "let") p =
          do '(vs, p) <- match skip p with
                         | c :: r =>
                           if (c =? open)%N then
                             do '(vs, r) <- binds f (skip r);
                             match r with [] => Panic | _ :: r => Ok (vs, r) end
                           else Ok ([], c :: r)
                         | [] => Ok ([], [])
                         end;
          do '(l, p) <- exprs f (skip p); finish (CLet (block vs l)) p.
Proof. reflexivity. Qed.
Lemma beq_neq a b : a <> b -> beq_bytes a b = false.
Proof. intros N. destruct (beq_bytes a b) eqn:E; [|reflexivity]. now apply beq_bytes_true in E. Qed.
Lemma lst_call f op p : identifier op -> ~ In op words -> firstn 5 op <> bs "print" ->
  lst_rest f op p = do '(l, p) <- exprs f (skip p); finish (CCall op l) p.
Proof.
  intros I N P. unfold lst_rest.
  assert (A : arith_name op = None /\ compare_name op = None).
  { destruct op as [|c op]; [easy|]. destruct I as [L _]. unfold letter in L.
    assert (X : forall d s, ~ (65 <= d <= 90 \/ 97 <= d <= 122 \/ d = 95)%N -> beq_bytes (c :: op) (d :: s) = false).
    { intros d s D. apply beq_neq. intros E. inversion E; subst. now apply D. }
    unfold arith_name, compare_name.
    change (bs "+") with [43%N]; change (bs "-") with [45%N]; change (bs "*") with [42%N]; change (bs "/") with [47%N].
    change (bs "<") with [60%N]; change (bs ">") with [62%N].
    rewrite !X by lia. split; [reflexivity|]. destruct op as [|d [|]]; try reflexivity.
    assert (E1 : (c =? 61)%N = false) by (apply N.eqb_neq; lia). assert (E2 : (c =? 33)%N = false) by (apply N.eqb_neq; lia). now rewrite E1, E2. }
  destruct A as [-> ->].
  assert (X : forall s, In s words -> beq_bytes op s = false).
  { intros s H. apply beq_neq. intros ->. now apply N. }
  rewrite !X by (unfold words; cbn; tauto).
  destruct (is_prefix (bs "print") op) eqn:E; [|reflexivity]. apply is_prefix_spec in E as [q ->]. now contradiction P.
Qed.

Lemma starts_block b : well_written_block b -> forall p, exists c t, written_block w w0 b ++ p = c :: t /\ is_space c = false.
Proof. intros H p. destruct b; cbn; eexists _, _; split; reflexivity. Qed.

Lemma written_let b : written w w0 (LLet b) = paren w0 (bs "let" ++ w ++ bs "(" ++ w0 ++ written_block w w0 b).
Proof. reflexivity. Qed.
Lemma written_call f l : written w w0 (LCall f l) = paren w0 (f ++ written_args w w0 l).
Proof. reflexivity. Qed.
Lemma written_arg e l : written_args w w0 (LArg e l) = w ++ written w w0 e ++ written_args w w0 l.
Proof. reflexivity. Qed.
Lemma written_body e : written_block w w0 (LBody e) = bs ")" ++ w ++ written w w0 e.
Proof. reflexivity. Qed.
Lemma written_bind x e b : written_block w w0 (LBind x e b) = paren w0 (x ++ w ++ written w w0 e) ++ w ++ written_block w w0 b.
Proof. reflexivity. Qed.

Lemma parse_all :
  (forall e, well_written e -> forall f p, sz e <= f -> ended p -> expr f (written w w0 e ++ p) = Ok (comp e, p)) /\
  (forall l, well_written_args l -> forall f p, szs l <= f -> exprs f (skip (written_args w w0 l ++ w0 ++ bs ")" ++ p)) = Ok (comp_args l, bs ")" ++ p)) /\
  (forall b, well_written_block b -> forall f p, szb b <= f ->
     binds f (written_block w w0 b ++ p) = Ok (decls b, bs ")" ++ w ++ written w w0 (body b) ++ p) /\
     (ended p -> expr (f - 1) (written w w0 (body b) ++ p) = Ok (comp (body b), p)) /\ well_written (body b)).
Proof.
  apply le_all.
  - intros neg ds H f p Hf E. destruct f as [|f]; [inversion Hf|]. pose proof (starts_app _ p (starts_written _ H)) as S.
    rewrite (expr_starts _ _ S). cbn [written] in *.
    assert (O : match ((if neg then bs "-" else []) ++ ds) ++ p with c :: _ => (c =? open)%N = false | [] => False end).
    { destruct H as (N & F & _). destruct neg; [reflexivity|]. destruct ds as [|c ds]; [easy|]. inversion F; subst.
      destruct (letter_not c (or_intror H1)) as (_ & _ & _ & _ & A & _). exact A. }
    pose proof (atom_num neg ds p H E) as A. destruct (((if neg then bs "-" else []) ++ ds) ++ p); [easy|]. rewrite O. exact A.
  - intros x H f p Hf E. destruct f as [|f]; [inversion Hf|]. pose proof (starts_app _ p (starts_written _ H)) as S.
    rewrite (expr_starts _ _ S). cbn [written] in *. pose proof (atom_sym x p H E) as A.
    assert (O : match x ++ p with c :: _ => (c =? open)%N = false | [] => False end).
    { destruct x as [|c x]; [easy|]. destruct H as [L _]. destruct (letter_not c (or_introl L)) as (_ & _ & _ & _ & G & _). exact G. }
    destruct (x ++ p); [easy|]. rewrite O. exact A.
  - intros o a IHa b IHb [Ha Hb] f p Hf E. cbn [sz] in Hf. destruct f as [|[|f]]; [lia|lia|]. cbn [written]. rewrite expr_paren.
    rewrite <- !app_assoc. rewrite lst_op; [|destruct o; now split|apply upto_op2; now apply ended_w].
    eapply (lst_two f o (comp a) (comp b) p (w ++ written w w0 a ++ w ++ written w w0 b ++ w0 ++ bs ")" ++ p)
                 (w ++ written w w0 b ++ w0 ++ bs ")" ++ p)); [| |reflexivity].
    + rewrite skip_w by (apply starts_app; now apply starts_written). apply IHa; [exact Ha|lia|now apply ended_w].
    + rewrite skip_w by (apply starts_app; now apply starts_written). apply IHb; [exact Hb|lia|now apply ended_blank].
  - intros o a IHa Ha f p Hf E. cbn [sz] in Hf. destruct f as [|[|f]]; [lia|lia|]. cbn [written]. rewrite expr_paren.
    rewrite <- !app_assoc. rewrite lst_op; [|destruct o; now split|apply upto_op1; now apply ended_w].
    apply (lst_one f o (comp a) p). rewrite skip_w by (apply starts_app; now apply starts_written).
    apply IHa; [exact Ha|lia|now apply ended_blank].
  - intros c IHc a IHa b IHb (Hc & Ha & Hb) f p Hf E. cbn [sz] in Hf. destruct f as [|[|f]]; [lia|lia|]. cbn [written]. rewrite expr_paren.
    rewrite <- !app_assoc. rewrite lst_op; [|now split|apply upto_if; now apply ended_w].
    rewrite lst_if. rewrite skip_w by (apply starts_app; now apply starts_written). rewrite IHc; [|exact Hc|lia|now apply ended_w]. cbn [bind].
    rewrite skip_w by (apply starts_app; now apply starts_written). rewrite IHa; [|exact Ha|lia|now apply ended_w]. cbn [bind].
    pose proof (starts_app _ (w0 ++ bs ")" ++ p) (starts_written _ Hb)) as S. rewrite (skip_w _ S).
    pose proof (IHb Hb f (w0 ++ bs ")" ++ p) ltac:(lia) ltac:(now apply ended_blank)) as R.
    destruct (written w w0 b ++ w0 ++ bs ")" ++ p); [easy|]. destruct S as [_ ->]. rewrite R. cbn [bind]. now apply finish_close.
  - intros c IHc a IHa (Hc & Ha) f p Hf E. cbn [sz] in Hf. destruct f as [|[|f]]; [lia|lia|]. cbn [written]. rewrite expr_paren.
    rewrite <- !app_assoc. rewrite lst_op; [|now split|apply upto_if; now apply ended_w].
    rewrite lst_if. rewrite skip_w by (apply starts_app; now apply starts_written). rewrite IHc; [|exact Hc|lia|now apply ended_w]. cbn [bind].
    rewrite skip_w by (apply starts_app; now apply starts_written). rewrite IHa; [|exact Ha|lia|now apply ended_blank]. cbn [bind].
    rewrite skip_w0_close. reflexivity.
  - intros b IHb Hb f p Hf E. cbn [sz] in Hf. destruct f as [|[|f]]; [lia|lia|]. rewrite written_let, expr_paren.
    rewrite <- !app_assoc. rewrite lst_op; [|now split|apply upto_let; now apply ended_w].
    rewrite lst_let. rewrite skip_w by now split. change (bs "(" ++ ?x) with (40%N :: x). cbv iota. change (40 =? open)%N with true. cbv iota.
    destruct (starts_block _ Hb (w0 ++ bs ")" ++ p)) as (c & t & Et & Ec).
    rewrite (skip_blank _ _ W3). replace (skip (written_block w w0 b ++ w0 ++ bs ")" ++ p)) with (written_block w w0 b ++ w0 ++ bs ")" ++ p)
      by (rewrite Et; cbn [skip]; now rewrite Ec).
    destruct (IHb Hb f (w0 ++ bs ")" ++ p) ltac:(lia)) as (R & R2 & R3). rewrite R. cbn [bind].
    change (bs ")" ++ ?x) with (41%N :: x) at 1. cbv iota. cbn [bind].
    rewrite skip_w by (apply starts_app; now apply starts_written).
    pose proof (szb_body b). destruct f as [|[|f]]; [lia|pose proof (sz_pos (body b)); lia|].
    pose proof (R2 ltac:(now apply ended_blank)) as Q. replace (S (S f) - 1) with (S f) in Q by lia.
    pose proof (starts_app _ (w0 ++ bs ")" ++ p) (starts_written _ R3)) as S.
    assert (X : exprs (Datatypes.S (Datatypes.S f)) (written w w0 (body b) ++ w0 ++ bs ")" ++ p) = Ok (ECons (comp (body b)) ENil, bs ")" ++ p)).
    { cbn [exprs]. destruct (written w w0 (body b) ++ w0 ++ bs ")" ++ p) eqn:Ew; [easy|]. destruct S as [_ S]. rewrite S. rewrite Q. cbn [bind].
      rewrite skip_w0_close. reflexivity. }
    rewrite X. cbn [bind]. rewrite block_decls. apply (finish_close _ []). constructor.
  - intros op l IHl (I & N & P & Hl) f p Hf E. cbn [sz] in Hf. destruct f as [|[|f]]; [lia|lia|]. rewrite written_call, expr_paren.
    rewrite <- !app_assoc. rewrite lst_op.
    + rewrite (lst_call _ _ _ I N P). rewrite IHl; [|exact Hl|lia]. cbn [bind]. apply (finish_close _ []). constructor.
    + now apply starts_id.
    + apply upto_sym; [exact I|]. destruct l; [now apply (ended_blank w0)|]. rewrite written_arg, <- app_assoc. now apply ended_w.
  - intros _ f p Hf. cbn [szs] in Hf. destruct f as [|f]; [lia|]. cbn [written_args app]. rewrite skip_w0_close. reflexivity.
  - intros e IHe l IHl [He Hl] f p Hf. cbn [szs] in Hf. destruct f as [|f]; [lia|]. rewrite written_arg, <- !app_assoc.
    pose proof (starts_app _ (written_args w w0 l ++ w0 ++ bs ")" ++ p) (starts_written _ He)) as S. rewrite (skip_w _ S).
    pose proof (IHe He f (written_args w w0 l ++ w0 ++ bs ")" ++ p) ltac:(lia)) as R.
    cbn [exprs]. destruct (written w w0 e ++ written_args w w0 l ++ w0 ++ bs ")" ++ p) eqn:Ew; [easy|]. destruct S as [_ ->].
    rewrite R by (destruct l; [now apply (ended_blank w0)|]; rewrite written_arg, <- app_assoc; now apply ended_w). cbn [bind].
    rewrite IHl; [|exact Hl|lia]. reflexivity.
  - intros e IHe He f p Hf. cbn [szb] in Hf. rewrite written_body. cbn [body decls]. splits.
    + destruct f as [|f]; [lia|]. rewrite <- !app_assoc. reflexivity.
    + intros E. apply IHe; [exact He|lia|exact E].
    + exact He.
  - intros x e IHe b IHb (I & He & Hb) f p Hf. cbn [szb] in Hf. destruct f as [|f]; [lia|]. rewrite written_bind. cbn [body decls].
    destruct (IHb Hb f p ltac:(lia)) as (R & R2 & R3). splits.
    + unfold paren. rewrite <- !app_assoc. cbn [binds]. change (bs "(" ++ ?x) with (40%N :: x). cbv iota. change (40 =? close)%N with false.
      change (40 =? open)%N with true. cbv iota. rewrite skip_w0 by (apply starts_app; now apply starts_id).
      assert (U : upto stop_arg (x ++ w ++ written w w0 e ++ w0 ++ bs ")" ++ w ++ written_block w w0 b ++ p) = (x, w ++ written w w0 e ++ w0 ++ bs ")" ++ w ++ written_block w w0 b ++ p)).
      { destruct w as [|c w']; [easy|]. cbn [app]. apply upto_arg; [exact I|]. inversion W2; subst. unfold stop_arg. now rewrite (blank_space _ H1). }
      rewrite U. rewrite skip_w by (apply starts_app; now apply starts_written).
      rewrite IHe; [|exact He|lia|now apply ended_blank]. cbn [bind]. rewrite skip_w0_close.
      change (bs ")" ++ ?x) with (41%N :: x) at 1. cbv iota. change (41 =? close)%N with true. cbv iota.
      destruct (starts_block _ Hb p) as (c & t & Et & Ec).
      rewrite (skip_blank _ _ W2). replace (skip (written_block w w0 b ++ p)) with (written_block w w0 b ++ p) by (rewrite Et; cbn [skip]; now rewrite Ec).
      rewrite R. reflexivity.
    + intros E. pose proof (szb_body b). destruct f as [|f]; [lia|]. replace (S (S f) - 1) with (S f) by lia.
      clear -IHb Hb Hf E. destruct (IHb Hb (S (S f)) p ltac:(lia)) as (_ & Q & _). replace (S (S f) - 1) with (S f) in Q by lia. exact (Q E).
    + exact R3.
Qed.
End Text.

(** * A block *)
Lemma sz_bound w w0 : layout w w0 ->
  (forall e, well_written e -> sz e <= 2 * length (written w w0 e)) /\
  (forall l, well_written_args l -> szs l <= 2 * length (written_args w w0 l) + 1) /\
  (forall b, well_written_block b -> szb b <= 2 * length (written_block w w0 b)).
Proof.
  intros (W1 & _ & _). assert (1 <= length w) by (destruct w; [easy|cbn; lia]).
  apply le_all.
  - intros neg ds (N & _). cbn [sz written]. rewrite app_length. destruct ds; [easy|]. cbn [length]. lia.
  - intros x I. cbn [sz written]. destruct x; [easy|]. cbn [length]. lia.
  - intros o a IHa b IHb [Ha Hb]. specialize (IHa Ha). specialize (IHb Hb). cbn [sz written]. unfold paren. rewrite !app_length.
    change (length (bs "(")) with 1. change (length (bs ")")) with 1. lia.
  - intros o a IHa Ha. specialize (IHa Ha). cbn [sz written]. unfold paren. rewrite !app_length.
    change (length (bs "(")) with 1. change (length (bs ")")) with 1. lia.
  - intros c IHc a IHa b IHb (Hc & Ha & Hb). specialize (IHa Ha). specialize (IHb Hb). specialize (IHc Hc). cbn [sz written]. unfold paren. rewrite !app_length.
    change (length (bs "(")) with 1. change (length (bs ")")) with 1. lia.
  - intros c IHc a IHa (Hc & Ha). specialize (IHa Ha). specialize (IHc Hc). cbn [sz written]. unfold paren. rewrite !app_length.
    change (length (bs "(")) with 1. change (length (bs ")")) with 1. lia.
  - intros b IHb Hb. specialize (IHb Hb). cbn [sz]. rewrite written_let. unfold paren. rewrite !app_length.
    change (length (bs "(")) with 1. change (length (bs ")")) with 1. change (length (bs "let")) with 3. lia.
  - intros f l IHl (_ & _ & _ & Hl). specialize (IHl Hl). cbn [sz]. rewrite written_call. unfold paren. rewrite !app_length.
    change (length (bs "(")) with 1. change (length (bs ")")) with 1. lia.
  - intros _. cbn. lia.
  - intros e IHe l IHl [He Hl]. specialize (IHe He). specialize (IHl Hl). cbn [szs]. rewrite written_arg, !app_length. lia.
  - intros e IHe He. specialize (IHe He). cbn [szb]. rewrite written_body, !app_length. change (length (bs ")")) with 1. lia.
  - intros x e IHe b IHb (_ & He & Hb). specialize (IHe He). specialize (IHb Hb). cbn [szb]. rewrite written_bind. unfold paren. rewrite !app_length.
    change (length (bs "(")) with 1. change (length (bs ")")) with 1. lia.
Qed.
Lemma top_ok w w0 l : layout w w0 -> well_written_args l -> forall f v, Forall blank v -> 2 * length (written_program w w0 l) + 1 <= f ->
  top f (v ++ written_program w w0 l) = Ok (comp_args l).
Proof.
  intros LW. pose proof LW as (W1 & W2 & W3). induction l as [|e l IH]; intros H f v Fv Hf; (destruct f as [|f]; [lia|]).
  - cbn [top written_program]. rewrite skip_blank by exact Fv. reflexivity.
  - destruct H as [He Hl]. cbn [written_program] in *. rewrite !app_length in Hf.
    assert (1 <= length w) by (destruct w; [easy|cbn; lia]).
    pose proof (proj1 (sz_bound w w0 LW) e He).
    pose proof (starts_app _ (w ++ written_program w w0 l) (starts_written w w0 e He)) as S.
    cbn [top]. rewrite skip_blank by exact Fv. rewrite (skip_starts _ S).
    pose proof (proj1 (parse_all w w0 LW) e He (Datatypes.S f) (w ++ written_program w w0 l) ltac:(lia) ltac:(now apply ended_w)) as R.
    destruct (written w w0 e ++ w ++ written_program w w0 l); [easy|]. destruct S as [_ S]. rewrite S, R. cbn [bind].
    rewrite IH; [reflexivity|exact Hl|exact W2|lia].
Qed.
Lemma transpile_ok w w0 l : layout w w0 -> well_written_args l -> transpile (written_program w w0 l) = Ok (CLet (BBody (comp_args l))).
Proof.
  intros LW H. unfold transpile. rewrite (top_ok w w0 l LW H _ []); [reflexivity|constructor|]. lia.
Qed.

(** * Numbers *)
Lemma number_fold ds a : fold_left (fun a c => a * 10 + digit_value c)%Z ds a = (a * 10 ^ Z.of_nat (length ds) + decimal ds)%Z.
Proof.
  revert a; induction ds as [|c ds IH]; intros a; [cbn; lia|]. cbn [fold_left decimal length]. rewrite IH.
  rewrite Nat2Z.inj_succ, Z.pow_succ_r by lia. unfold digit_value. ring.
Qed.
Lemma constant_ok (neg : bool) ds : numeral ds -> constant ((if neg then [45%N] else []) ++ ds) = Some (if neg then - decimal ds else decimal ds)%Z.
Proof.
  intros (N & F & Z0 & B). unfold constant.
  assert (E : signed ((if neg then [45%N] else []) ++ ds) = (neg, ds)).
  { destruct neg; [reflexivity|]. destruct ds as [|c ds]; [easy|]. inversion F; subst. unfold figure in H1. cbn [app signed].
    assert (G : (c =? 45)%N = false) by (apply N.eqb_neq; lia). now rewrite G. }
  rewrite E.
  assert (V : magnitude ds = Some (decimal ds)).
  { assert (X : number 10 ds = decimal ds) by (unfold number; rewrite number_fold; lia).
    destruct Z0 as [->|H]; [reflexivity|]. destruct ds as [|c [|d ds]]; [easy| |]; cbn [magnitude]; rewrite <- X; [reflexivity|].
    cbn [hd] in H. apply N.eqb_neq in H. now rewrite H. }
  rewrite V. assert (L : (decimal ds <? 9223372036854775808)%Z = true) by (apply Z.ltb_lt; exact B). now rewrite L.
Qed.

(** * Names *)
Lemma has_In x l : has x l = true <-> In x l.
Proof.
  unfold has. rewrite existsb_exists. split; [intros (y & I & E); apply beq_bytes_true in E; now subst|].
  intros I. exists x. split; [exact I|apply beq_bytes_refl].
Qed.
Section Run.
Variable arity : bytes -> option nat.
Variable fn : bytes -> list val -> res val.
Lemma has_l x vars : Forall (variable_name arity) vars -> firstn 2 x = bs "l_" -> has x vars = false.
Proof.
  intros F E. destruct (has x vars) eqn:H; [|reflexivity]. apply has_In in H. rewrite Forall_forall in F. now destruct (F _ H).
Qed.
Lemma has_fn x n vars : Forall (variable_name arity) vars -> arity x = Some n -> has x vars = false.
Proof.
  intros F E. destruct (has x vars) eqn:H; [|reflexivity]. apply has_In in H. rewrite Forall_forall in F. destruct (F _ H). congruence.
Qed.
Lemma runtime_arity_none f : firstn 2 f <> bs "l_" -> runtime_arity f = None.
Proof.
  intros N. unfold runtime_arity.
  assert (X : forall l, Forall (fun s => firstn 2 s = bs "l_") l -> existsb (beq_bytes f) l = false).
  { induction 1 as [|s l E _ IH]; [reflexivity|]. cbn. rewrite IH, orb_false_r. apply beq_neq. now intros ->. }
  rewrite !X; [reflexivity| |]; repeat constructor.
Qed.
Lemma runtime_none f vs : firstn 2 f <> bs "l_" -> runtime f vs = None.
Proof.
  intros N. assert (X : forall s, firstn 2 s = bs "l_" -> beq_bytes f s = false) by (intros s E; apply beq_neq; now intros ->).
  unfold runtime. destruct vs as [|a [|b [|]]]; try reflexivity; now rewrite !X by reflexivity.
Qed.
Lemma count_comp l : count (comp_args l) = args l.
Proof. induction l; cbn; [reflexivity|now rewrite IHl]. Qed.
Lemma checked_call vars f l n : f <> [] -> all_arity arity f = Some n -> has f vars = false -> n = count l -> checked_all arity vars l = true -> checked arity vars (CCall f l) = true.
Proof.
  intros N A H -> C. destruct f as [|c f]; [easy|].
  change (match all_arity arity (c :: f) with Some n => negb (has (c :: f) vars) && (n =? count l) && checked_all arity vars l | None => false end = true).
  rewrite A, H, C, Nat.eqb_refl. reflexivity.
Qed.
Lemma checked_cons vars e l : checked_all arity vars (ECons e l) = checked arity vars e && checked_all arity vars l.
Proof. reflexivity. Qed.
Lemma ceval_cons r e l : ceval_all fn r (ECons e l) = do v <- ceval fn r e; do vs <- ceval_all fn r l; Ok (v :: vs).
Proof. reflexivity. Qed.
Lemma ceval_call r f l vs : f <> [] -> ceval_all fn r l = Ok vs -> ceval fn r (CCall f l) = call fn f vs.
Proof.
  intros N E. destruct f as [|c f]; [easy|]. change (bind (ceval_all fn r l) (fun vs => call fn (c :: f) vs) = call fn (c :: f) vs).
  now rewrite E.
Qed.
Lemma f2_name o : f2 o <> [] /\ all_arity arity (f2 o) = Some 2 /\ firstn 2 (f2 o) = bs "l_".
Proof. destruct o; now split. Qed.
Lemma f1_name o : f1 o <> [] /\ all_arity arity (f1 o) = Some 1 /\ firstn 2 (f1 o) = bs "l_".
Proof. destruct o; now split. Qed.

Lemma checked_ok :
  (forall e, well_written e -> forall vars vars', exists_all arity vars e -> Forall (variable_name arity) vars' -> incl vars vars' -> checked arity vars' (comp e) = true) /\
  (forall l, well_written_args l -> forall vars vars', exists_args arity vars l -> Forall (variable_name arity) vars' -> incl vars vars' -> checked_all arity vars' (comp_args l) = true) /\
  (forall b, well_written_block b -> forall vars inner vars' mine, exists_block arity vars inner b -> Forall (variable_name arity) vars' -> incl vars vars' ->
     (forall x, In x inner -> In x vars' \/ In x (bound b)) -> NoDup (bound b) -> Forall (variable_name arity) (bound b) -> (forall x, In x (bound b) -> ~ In x mine) ->
     checked_block arity vars' mine (comp_block b) = true).
Proof.
  apply le_all.
  - intros neg ds N vars vars' _ F _. cbn [comp checked]. rewrite (constant_ok neg ds N). now rewrite (has_l _ _ F).
  - intros x _ vars vars' [I| ->] F S; cbn [comp checked]; [|now rewrite beq_bytes_refl, orb_true_r].
    now rewrite (proj2 (has_In x vars') (S _ I)).
  - intros o a IHa b IHb [Wa Wb] vars vars' [Ea Eb] F S. destruct (f2_name o) as (N & A & L).
    cbn [comp]. unfold two. apply (checked_call _ _ _ 2 N A (has_l _ _ F L)); [reflexivity|].
    rewrite !checked_cons. rewrite (IHa Wa _ _ Ea F S), (IHb Wb _ _ Eb F S). reflexivity.
  - intros o a IHa Wa vars vars' Ea F S. destruct (f1_name o) as (N & A & L).
    cbn [comp]. apply (checked_call _ _ _ 1 N A (has_l _ _ F L)); [reflexivity|].
    rewrite !checked_cons. rewrite (IHa Wa _ _ Ea F S). reflexivity.
  - intros c IHc a IHa b IHb (Wc & Wa & Wb) vars vars' (Ec & Ea & Eb) F S. cbn [comp checked].
    rewrite (IHa Wa _ _ Ea F S), (IHb Wb _ _ Eb F S), (IHc Wc _ _ Ec F S), (has_l _ _ F); reflexivity.
  - intros c IHc a IHa (Wc & Wa) vars vars' (Ec & Ea) F S. cbn [comp checked].
    rewrite (IHa Wa _ _ Ea F S), (IHc Wc _ _ Ec F S), !(has_l _ _ F); reflexivity.
  - intros b IHb Wb vars vars' (D & V & _ & E) F S. change (checked arity vars' (comp (LLet b))) with (checked_block arity vars' [] (comp_block b)).
    apply (IHb Wb vars (bound b ++ vars)); auto.
    intros x I. apply in_app_or in I as [I|I]; [now right|left; now apply S].
  - intros f l IHl (I & _ & _ & Wl) vars vars' (A & L & E) F S. change (comp (LCall f l)) with (CCall f (comp_args l)).
    apply (checked_call _ _ _ (args l)).
    + destruct f; easy.
    + unfold all_arity. now rewrite (runtime_arity_none _ L).
    + now apply (has_fn _ _ _ F A).
    + symmetry; apply count_comp.
    + now apply (IHl Wl vars).
  - reflexivity.
  - intros e IHe l IHl [We Wl] vars vars' [Ee El] F S.
    change (checked_all arity vars' (comp_args (LArg e l))) with (checked arity vars' (comp e) && checked_all arity vars' (comp_args l)).
    rewrite (IHe We _ _ Ee F S), (IHl Wl _ _ El F S). reflexivity.
  - intros e IHe We vars inner vars' mine E F S I _ _ _.
    change (checked_block arity vars' mine (comp_block (LBody e))) with ((checked arity vars' (comp e) && true) && true).
    rewrite (IHe We inner vars' E F); [reflexivity|]. intros x Hx. destruct (I x Hx) as [H|[]]. exact H.
  - intros x e IHe b IHb (_ & We & Wb) vars inner vars' mine [Ee Eb] F S I D V M. cbn [bound] in *.
    inversion D; subst. inversion V; subst.
    change (checked_block arity vars' mine (comp_block (LBind x e b)))
      with (negb (has x mine) && checked arity (x :: vars') (comp e) && checked_block arity (x :: vars') (x :: mine) (comp_block b)).
    assert (F' : Forall (variable_name arity) (x :: vars')) by now constructor.
    assert (S' : incl vars (x :: vars')) by (intros y Hy; right; now apply S).
    rewrite (IHe We vars _ Ee F' S'), (IHb Wb vars inner (x :: vars') (x :: mine) Eb F' S'); auto.
    + destruct (has x mine) eqn:H; [|reflexivity]. apply has_In in H. exfalso. apply (M x); [now left|exact H].
    + intros y Hy. destruct (I y Hy) as [H|[->|H]]; [left; now right|left; now left|now right].
    + intros y Hy [->|H]; [contradiction|]. apply (M y); [now right|exact H].
Qed.

(** * Values *)
Definition emb (o : option val) : option (option val) := match o with Some v => Some (Some v) | None => None end.
Lemma value2_ok o a b v : value2 o a b = Ok v -> call fn (f2 o) [a; b] = Ok v.
Proof.
  assert (L : forall z v, number_value z = Ok v -> long z = Ok v).
  { intros z u. unfold number_value, in_long, long. change (2 ^ 63)%Z with 9223372036854775808%Z. change (- 9223372036854775808)%Z with (-9223372036854775808)%Z.
    destruct ((- (9223372036854775808) <=? z)%Z) eqn:E1; [|discriminate]. change (- (9223372036854775808))%Z with (-9223372036854775808)%Z in E1. rewrite E1. cbn [andb].
    destruct (z <? 9223372036854775808)%Z eqn:E2; [|discriminate]. apply Z.ltb_lt in E2. intros E. assert (G : (z <=? 9223372036854775807)%Z = true) by (apply Z.leb_le; lia). now rewrite G. }
  intros H. destruct o.
  1-3,5: destruct a as [x| |], b as [y| |]; try discriminate H; cbn [value2] in H.
  - change (long (x + y) = Ok v). now apply L.
  - change (long (x - y) = Ok v). now apply L.
  - change (long (x * y) = Ok v). now apply L.
  - exact H.
  - destruct a as [x| |], b as [y| |]; try discriminate H; cbn [value2] in H.
    change (long (if (y =? 0)%Z then 0 else Z.quot x y) = Ok v). destruct (y =? 0)%Z; [discriminate|now apply L].
  - exact H.
Qed.
Lemma value1_ok o a v : value1 o a = Ok v -> call fn (f1 o) [a] = Ok v.
Proof. destruct o, a; cbn [value1]; intros H; try discriminate; exact H. Qed.

Lemma looks_bindings_block b x : looks_bindings x b -> looks_block x b.
Proof. induction b; cbn [looks_bindings]; [easy|]. intros [H|H]; [now left|right; now apply IHb]. Qed.
Lemma looks_body_block b x : looks x (body b) -> looks_block x b.
Proof. induction b; cbn [body]; [easy|]. intros H. right. now apply IHb. Qed.

Lemma bind_Ok' {A B} (x : res A) (k : A -> res B) v : bind x k = Ok v -> exists a, x = Ok a /\ k a = Ok v.
Proof. destruct x; cbn; try discriminate. eauto. Qed.

Lemma eval_ok :
  (forall e, well_written e -> forall vars r (rho : place) v, exists_all arity vars e -> (forall x, looks x e -> lookup x r = emb (rho x)) ->
     lisp fn rho e = Ok v -> ceval fn r (comp e) = Ok v) /\
  (forall l, well_written_args l -> forall vars r (rho : place) v, exists_args arity vars l -> (forall x, looks_args x l -> lookup x r = emb (rho x)) ->
     lisp_args fn rho l = Ok v -> ceval_all fn r (comp_args l) = Ok v) /\
  (forall b, well_written_block b -> forall vars inn r (rho inner : place) v, exists_block arity vars inn b ->
     (forall x, In x (bound b) -> ~ looks_bindings x b) ->
     (forall x, looks_bindings x b -> lookup x r = emb (rho x)) -> (forall x, looks x (body b) -> lookup x r = emb (inner x)) ->
     lisp_block fn rho inner b = Ok v -> ceval_block fn r (comp_block b) = Ok v).
Proof.
  apply le_all.
  - intros neg ds N vars r rho v _ _ H. cbn [comp ceval]. rewrite (constant_ok neg ds N). exact H.
  - intros x _ vars r rho v _ A H. cbn [comp ceval lisp] in *. rewrite (A x eq_refl). destruct (rho x); [exact H|]. cbn [emb].
    destruct (beq_bytes x (bs "nil")); [exact H|discriminate].
  - intros o a IHa b IHb [Wa Wb] vars r rho v [Ea Eb] A H. cbn [lisp] in H. apply bind_Ok' in H as (x & Hx & H). apply bind_Ok' in H as (y & Hy & H).
    destruct (f2_name o) as (N & _ & _). cbn [comp]. unfold two. rewrite (ceval_call _ _ _ [x; y] N); [now apply value2_ok|].
    rewrite !ceval_cons. rewrite (IHa Wa _ _ _ _ Ea (fun z Hz => A z (or_introl Hz)) Hx). cbn [bind].
    rewrite (IHb Wb _ _ _ _ Eb (fun z Hz => A z (or_intror Hz)) Hy). reflexivity.
  - intros o a IHa Wa vars r rho v Ea A H. cbn [lisp] in H. apply bind_Ok' in H as (x & Hx & H).
    destruct (f1_name o) as (N & _ & _). cbn [comp]. rewrite (ceval_call _ _ _ [x] N); [now apply value1_ok|].
    rewrite !ceval_cons. rewrite (IHa Wa _ _ _ _ Ea A Hx). reflexivity.
  - intros c IHc a IHa b IHb (Wc & Wa & Wb) vars r rho v (Ec & Ea & Eb) A H. cbn [lisp] in H. apply bind_Ok' in H as (x & Hx & H).
    cbn [comp ceval]. rewrite (IHc Wc _ _ _ _ Ec (fun z Hz => A z (or_introl Hz)) Hx). cbn [bind].
    destruct x; cbn [truthy].
    + apply (IHa Wa _ _ _ _ Ea (fun z Hz => A z (or_intror (or_introl Hz))) H).
    + apply (IHb Wb _ _ _ _ Eb (fun z Hz => A z (or_intror (or_intror Hz))) H).
    + apply (IHa Wa _ _ _ _ Ea (fun z Hz => A z (or_intror (or_introl Hz))) H).
  - intros c IHc a IHa (Wc & Wa) vars r rho v (Ec & Ea) A H. cbn [lisp] in H. apply bind_Ok' in H as (x & Hx & H).
    cbn [comp ceval]. rewrite (IHc Wc _ _ _ _ Ec (fun z Hz => A z (or_introl Hz)) Hx). cbn [bind].
    destruct x; cbn [truthy].
    + apply (IHa Wa _ _ _ _ Ea (fun z Hz => A z (or_intror Hz)) H).
    + exact H.
    + apply (IHa Wa _ _ _ _ Ea (fun z Hz => A z (or_intror Hz)) H).
  - intros b IHb Wb vars r rho v (D & V & NL & E) A H. change (ceval_block fn r (comp_block b) = Ok v).
    apply (IHb Wb vars (bound b ++ vars) r rho rho v E NL); [| |exact H].
    + intros x Hx. apply A. now apply looks_bindings_block.
    + intros x Hx. apply A. now apply looks_body_block.
  - intros f l IHl (I & _ & _ & Wl) vars r rho v (Ar & L & E) A H.
    change (lisp fn rho (LCall f l)) with (bind (lisp_args fn rho l) (fun vs => fn f vs)) in H. apply bind_Ok' in H as (vs & Hv & H).
    change (comp (LCall f l)) with (CCall f (comp_args l)). rewrite (ceval_call _ _ _ vs); [|now destruct f|now apply (IHl Wl vars r rho)].
    unfold call. now rewrite (runtime_none _ _ L).
  - intros _ vars r rho v _ _ H. exact H.
  - intros e IHe l IHl [We Wl] vars r rho v [Ee El] A H.
    change (lisp_args fn rho (LArg e l)) with (bind (lisp fn rho e) (fun v => bind (lisp_args fn rho l) (fun vs => Ok (v :: vs)))) in H.
    apply bind_Ok' in H as (x & Hx & H). apply bind_Ok' in H as (vs & Hvs & H).
    change (ceval_all fn r (comp_args (LArg e l))) with (bind (ceval fn r (comp e)) (fun v => bind (ceval_all fn r (comp_args l)) (fun vs => Ok (v :: vs)))).
    rewrite (IHe We _ _ _ _ Ee (fun z Hz => A z (or_introl Hz)) Hx). cbn [bind].
    rewrite (IHl Wl _ _ _ _ El (fun z Hz => A z (or_intror Hz)) Hvs). exact H.
  - intros e IHe We vars inn r rho inner v E _ _ A H.
    change (ceval_block fn r (comp_block (LBody e))) with (bind (bind (ceval fn r (comp e)) (fun v => Ok [v])) (fun xs => match rev xs with v :: _ => Ok v | [] => Panic end)).
    rewrite (IHe We _ _ _ _ E A H). reflexivity.
  - intros x e IHe b IHb (_ & We & Wb) vars inn r rho inner v [Ee Eb] NL A1 A2 H. cbn [bound body looks_bindings] in *.
    change (lisp_block fn rho inner (LBind x e b)) with (bind (lisp fn rho e) (fun v => lisp_block fn rho (put x v inner) b)) in H.
    apply bind_Ok' in H as (u & Hu & H).
    change (ceval_block fn r (comp_block (LBind x e b))) with (bind (ceval fn ((x, None) :: r) (comp e)) (fun v => ceval_block fn ((x, Some v) :: r) (comp_block b))).
    rewrite (IHe We vars ((x, None) :: r) rho u Ee); [cbn [bind]| |exact Hu].
    + apply (IHb Wb vars inn ((x, Some u) :: r) rho (put x u inner) v Eb); [| | |exact H].
      * intros y Hy HL. apply (NL y); [now right|now right].
      * intros y Hy. cbn [lookup]. rewrite beq_neq; [apply A1; now right|]. intros ->. apply (NL x); [now left|now right].
      * intros y Hy. cbn [lookup]. unfold put. destruct (beq_bytes y x) eqn:E; [reflexivity|]. now apply A2.
    + intros y Hy. cbn [lookup]. rewrite beq_neq; [apply A1; now left|]. intros ->. apply (NL x); [now left|now left].
Qed.

Lemma run_ok w w0 r l v : layout w w0 -> well_written_args l -> exists_args arity (map fst r) l -> Forall (variable_name arity) (map fst r) ->
  lisp_program fn (fun x => match lookup x r with Some o => o | None => None end) l = Ok v ->
  (forall x o, lookup x r = Some o -> o <> None) ->
  run arity fn r (written_program w w0 l) = Ok v.
Proof.
  intros LW W E F H I. unfold run. rewrite (transpile_ok w w0 l LW W). cbn [bind].
  unfold lisp_program in H. apply bind_Ok' in H as (vs & Hv & H). destruct vs as [|u vs]; [discriminate|].
  assert (Hl : v = last (u :: vs) VNil) by congruence. clear H.
  pose proof (proj1 (proj2 checked_ok) l W _ _ E F (incl_refl _)) as C.
  assert (Nl : (0 <? count (comp_args l)) = true) by (destruct l; [discriminate|reflexivity]).
  change (checked arity (map fst r) (CLet (BBody (comp_args l)))) with (checked_all arity (map fst r) (comp_args l) && (0 <? count (comp_args l))).
  rewrite C, Nl. cbn [andb].
  change (ceval fn r (CLet (BBody (comp_args l)))) with (bind (ceval_all fn r (comp_args l)) (fun xs => match rev xs with v :: _ => Ok v | [] => Panic end)).
  assert (Ag : forall x, looks_args x l -> lookup x r = emb (match lookup x r with Some o => o | None => None end)).
  { intros x _. destruct (lookup x r) as [o|] eqn:El; [|reflexivity]. specialize (I _ _ El). now destruct o. }
  rewrite (proj1 (proj2 eval_ok) l W _ r _ (u :: vs) E Ag Hv). cbn [bind]. rewrite Hl.
  destruct (exists_last (l := u :: vs) ltac:(easy)) as (q & z & ->). rewrite rev_app_distr, last_last. reflexivity.
Qed.
End Run.
Lemma lookup_value r x : lookup x (map (fun p => (fst p, Some (snd p))) r) = emb (value_in r x).
Proof.
  induction r as [|[y v] r IH]; [reflexivity|]. cbn [map fst snd lookup value_in]. destruct (list_eq_dec N.eq_dec x y) as [->|N].
  - now rewrite beq_bytes_refl.
  - now rewrite (beq_neq _ _ N).
Qed.
Lemma map_fst_some (r : list (bytes * val)) : map fst (map (fun p => (fst p, Some (snd p))) r) = map fst r.
Proof. rewrite map_map. now apply map_ext. Qed.

(** * What goes wrong *)
Definition neutral (s : bytes) : Prop := forall p d, to_depth (s ++ p) (S d) = to_depth p (S d).
Lemma neutral_app s t : neutral s -> neutral t -> neutral (s ++ t).
Proof. intros A B p d. now rewrite <- app_assoc, A, B. Qed.
Lemma neutral_plain s : Forall (fun c => (c =? 40)%N = false /\ (c =? 41)%N = false) s -> neutral s.
Proof. induction 1 as [|c s [A B] _ IH]; intros p d; [reflexivity|]. cbn [app to_depth]. unfold open, close. rewrite A, B. apply IH. Qed.
Lemma neutral_blank s : Forall blank s -> neutral s.
Proof. intros F. apply neutral_plain. eapply Forall_impl; [|exact F]. intros c H. unfold blank in H. split; apply N.eqb_neq; lia. Qed.
Lemma neutral_id x : identifier x -> neutral x.
Proof. intros I. apply neutral_plain. eapply Forall_impl; [|apply (identifier_chars _ I)]. intros c H. destruct (letter_not _ H) as (_ & _ & _ & _ & A & B). now split. Qed.
Lemma neutral_paren w0 s : Forall blank w0 -> neutral s -> neutral (paren w0 s).
Proof.
  intros F A p d. unfold paren. rewrite <- !app_assoc. change (to_depth (w0 ++ s ++ w0 ++ bs ")" ++ p) (S (S d)) = to_depth p (S d)).
  now rewrite (neutral_blank _ F), A, (neutral_blank _ F).
Qed.
Lemma neutral_written w w0 : layout w w0 ->
  (forall e, well_written e -> neutral (written w w0 e)) /\
  (forall l, well_written_args l -> neutral (written_args w w0 l)) /\
  (forall b, well_written_block b -> forall p d, to_depth (written_block w w0 b ++ p) (S (S d)) = to_depth p (S d)).
Proof.
  intros (_ & W2 & W3). pose proof (neutral_blank _ W2) as NW.
  apply le_all.
  - intros neg ds (_ & F & _). cbn [written]. apply neutral_app; [destruct neg; now intros p d|]. apply neutral_plain.
    eapply Forall_impl; [|exact F]. intros c H. destruct (letter_not _ (or_intror H)) as (_ & _ & _ & _ & A & B). now split.
  - intros x I. now apply neutral_id.
  - intros o a IHa b IHb [Ha Hb]. cbn [written]. apply (neutral_paren _ _ W3). repeat apply neutral_app; auto. destruct o; now intros p d.
  - intros o a IHa Ha. cbn [written]. apply (neutral_paren _ _ W3). repeat apply neutral_app; auto. destruct o; now intros p d.
  - intros c IHc a IHa b IHb (Hc & Ha & Hb). cbn [written]. apply (neutral_paren _ _ W3). repeat apply neutral_app; auto. now intros p d.
  - intros c IHc a IHa (Hc & Ha). cbn [written]. apply (neutral_paren _ _ W3). repeat apply neutral_app; auto. now intros p d.
  - intros b IHb Hb. rewrite written_let. apply (neutral_paren _ _ W3). apply neutral_app; [now intros p d|]. apply neutral_app; [exact NW|].
    intros p d. rewrite <- !app_assoc. change (to_depth (w0 ++ written_block w w0 b ++ p) (S (S d)) = to_depth p (S d)).
    rewrite (neutral_blank _ W3). now apply IHb.
  - intros f l IHl (I & _ & _ & Hl). rewrite written_call. apply (neutral_paren _ _ W3). apply neutral_app; [now apply neutral_id|now apply IHl].
  - intros _ p d. reflexivity.
  - intros e IHe l IHl [He Hl]. rewrite written_arg. repeat apply neutral_app; auto.
  - intros e IHe He p d. rewrite written_body, <- !app_assoc. change (to_depth (w ++ written w w0 e ++ p) (S d) = to_depth p (S d)).
    now rewrite NW, (IHe He).
  - intros x e IHe b IHb (I & He & Hb) p d. rewrite written_bind, <- !app_assoc.
    rewrite (neutral_paren w0 _ W3). 2:{ repeat apply neutral_app; auto. now apply neutral_id. }
    rewrite NW. now apply IHb.
Qed.

Lemma paren_or_atom w w0 e : well_written e -> (exists s, written w w0 e = paren w0 s) \/
  Forall (fun c => stop_arg c = false /\ (c =? 40)%N = false) (written w w0 e).
Proof.
  assert (X : forall c, letter c \/ figure c -> stop_arg c = false /\ (c =? 40)%N = false).
  { intros c H. destruct (letter_not _ H) as (_ & A & _ & _ & B & C). split; [|exact B]. unfold stop_arg, close. now rewrite A, C. }
  destruct e; intros H; try (left; eexists; reflexivity); right.
  - destruct H as (_ & F & _). cbn [written]. apply Forall_app; split; [destruct neg; repeat constructor|].
    eapply Forall_impl; [|exact F]. intros c Hc. apply X. now right.
  - eapply Forall_impl; [|apply (identifier_chars _ H)]. exact X.
Qed.
Lemma skip_args_one w w0 c : layout w w0 -> well_written c -> forall f p, skip_args (S (S f)) (written w w0 c ++ w0 ++ bs ")" ++ p) = Ok (bs ")" ++ p).
Proof.
  intros LW H f p. pose proof LW as (_ & W2 & W3). pose proof (starts_written w w0 c H) as S. destruct (paren_or_atom w w0 c H) as [[s E]|F].
  - pose proof (proj1 (neutral_written w w0 LW) c H) as Ne. rewrite E in *.
    assert (T : to_depth (w0 ++ s ++ w0 ++ bs ")" ++ w0 ++ bs ")" ++ p) 1 = w0 ++ bs ")" ++ p).
    { pose proof (Ne (w0 ++ bs ")" ++ p)) as T.
      (* up to the last parenthesis the text is neutral *)
      assert (Q : neutral (w0 ++ s ++ w0)).
      { intros q d. pose proof (Ne) as G.
        clear -W3 H E LW. revert q d. change (neutral (w0 ++ s ++ w0)).
        apply neutral_app; [now apply neutral_blank|]. apply neutral_app; [|now apply neutral_blank].
        clear W3. pose proof (neutral_written w w0 LW) as (N1 & N2 & N3). pose proof LW as (_ & W2 & W3).
        assert (Inj : forall t, written w w0 c = paren w0 t -> s = t).
        { intros t Et. rewrite E in Et. unfold paren in Et. apply app_inv_head in Et. apply app_inv_head in Et. now apply app_inv_tail in Et. }
        pose proof (neutral_blank _ W2) as NW.
        destruct c; try (rewrite (Inj _ eq_refl)).
        - exfalso. destruct H as (Nn & F & _). cbn [written] in E. destruct neg; [discriminate E|]. destruct ds as [|d ds]; [easy|].
          inversion F; subst. injection E as E _. unfold figure in H1. rewrite E in H1. vm_compute in H1. now destruct H1.
        - exfalso. cbn [written] in E. subst x. destruct H as [L _]. vm_compute in L. now destruct L as [[? ?]|[[? ?]|?]].
        - destruct H. repeat apply neutral_app; auto. destruct o; now intros q d.
        - repeat apply neutral_app; auto. destruct o; now intros q d.
        - destruct H as (? & ? & ?). repeat apply neutral_app; auto. now intros q d.
        - destruct H as (? & ?). repeat apply neutral_app; auto. now intros q d.
        - apply neutral_app; [now intros q d|]. apply neutral_app; [exact NW|]. intros q d. rewrite <- !app_assoc.
          change (to_depth (w0 ++ written_block w w0 b ++ q) (Datatypes.S (Datatypes.S d)) = to_depth q (Datatypes.S d)).
          rewrite (neutral_blank _ W3). now apply N3.
        - destruct H as (I & _ & _ & Hl). apply neutral_app; [now apply neutral_id|now apply N2]. }
      replace (w0 ++ s ++ w0 ++ bs ")" ++ w0 ++ bs ")" ++ p) with ((w0 ++ s ++ w0) ++ bs ")" ++ w0 ++ bs ")" ++ p) by (rewrite <- !app_assoc; reflexivity).
      rewrite Q. change (to_depth (w0 ++ bs ")" ++ p) 0 = w0 ++ bs ")" ++ p). now destruct w0. }
    unfold paren. rewrite <- !app_assoc.
    change (skip_args (Datatypes.S f) (skip (to_depth (w0 ++ s ++ w0 ++ bs ")" ++ w0 ++ bs ")" ++ p) 1)) = Ok (bs ")" ++ p)).
    rewrite T. rewrite skip_blank by exact W3. reflexivity.
  - assert (U : upto stop_arg (written w w0 c ++ w0 ++ bs ")" ++ p) = (written w w0 c, w0 ++ bs ")" ++ p)).
    { apply upto_run; [eapply Forall_impl; [|exact F]; now intros d [A _]|]. destruct w0 as [|d w0']; [reflexivity|]. cbn [app].
      inversion W3; subst. unfold stop_arg. now rewrite (blank_space _ H2). }
    destruct (written w w0 c) as [|d t] eqn:Ew; [easy|]. inversion F; subst. destruct S as [_ S]. destruct H2 as [_ O].
    cbn [skip_args]. change ((d :: t) ++ ?x) with (d :: t ++ x). cbv iota. rewrite S. unfold open. rewrite O.
    change (d :: t ++ ?x) with ((d :: t) ++ x). rewrite U. cbn [snd]. rewrite skip_blank by exact W3. reflexivity.
Qed.

Lemma transpile_form t e p : starts t -> Forall blank p -> (forall f, 2 * length t <= f -> expr f (t ++ p) = Ok (e, p)) -> transpile (t ++ p) = Ok (CLet (BBody (ECons e ENil))).
Proof.
  intros S F H. unfold transpile. replace (2 * length (t ++ p) + 4) with (Datatypes.S (Datatypes.S (2 * length (t ++ p) + 2))) by lia.
  cbn [top]. rewrite (skip_starts _ (starts_app _ p S)). pose proof (starts_app _ p S) as S2.
  assert (L : 2 * length t <= Datatypes.S (Datatypes.S (2 * length (t ++ p) + 2))) by (rewrite app_length; lia).
  pose proof (H _ L) as R. clear H L. destruct (t ++ p) as [|c q] eqn:E; [easy|]. destruct S2 as [_ S2]. rewrite S2.
  rewrite R. cbn [bind]. replace (skip p) with (@nil N); [reflexivity|]. rewrite <- (app_nil_r p) at 1. now rewrite skip_blank.
Qed.

Lemma extra_arg w w0 o a b c p : layout w w0 -> o <> Lt -> o <> Cons -> well_written a -> well_written b -> well_written c -> Forall blank p ->
  transpile (paren w0 (name2 o ++ w ++ written w w0 a ++ w ++ written w w0 b ++ w ++ written w w0 c) ++ p) = Ok (CLet (BBody (ECons (comp (LTwo o a b)) ENil))).
Proof.
  intros LW N1 N2 Ha Hb Hc Fp. pose proof LW as (W1 & W2 & W3). apply transpile_form; [now split|exact Fp|]. intros f Hf.
  pose proof (proj1 (sz_bound w w0 LW) a Ha). pose proof (proj1 (sz_bound w w0 LW) b Hb).
  unfold paren in Hf. rewrite !app_length in Hf. change (length (bs "(")) with 1 in Hf. change (length (bs ")")) with 1 in Hf.
  destruct f as [|[|f]]; [lia|lia|]. rewrite expr_paren, <- !app_assoc.
  rewrite (lst_op w w0 LW); [|destruct o; now split|apply (upto_op2); now apply ended_w].
  assert (A : expr f (skip (w ++ written w w0 a ++ w ++ written w w0 b ++ w ++ written w w0 c ++ w0 ++ bs ")" ++ p)) = Ok (comp a, w ++ written w w0 b ++ w ++ written w w0 c ++ w0 ++ bs ")" ++ p)).
  { rewrite (skip_w w w0 LW) by (apply starts_app; now apply starts_written). apply (proj1 (parse_all w w0 LW)); [exact Ha|lia|now apply ended_w]. }
  assert (B : expr f (skip (w ++ written w w0 b ++ w ++ written w w0 c ++ w0 ++ bs ")" ++ p)) = Ok (comp b, w ++ written w w0 c ++ w0 ++ bs ")" ++ p)).
  { rewrite (skip_w w w0 LW) by (apply starts_app; now apply starts_written). apply (proj1 (parse_all w w0 LW)); [exact Hb|lia|now apply ended_w]. }
  assert (R : lst_rest f (name2 o) (w ++ written w w0 a ++ w ++ written w w0 b ++ w ++ written w w0 c ++ w0 ++ bs ")" ++ p) =
    do '(x, q) <- expr f (skip (w ++ written w w0 a ++ w ++ written w w0 b ++ w ++ written w w0 c ++ w0 ++ bs ")" ++ p));
    do '(y, q) <- expr f (skip q); do q <- skip_args (Datatypes.S (length q)) (skip q); finish (two (f2 o) x y) q).
  { destruct o; try easy. }
  rewrite R, A. cbn [bind]. rewrite B. cbn [bind]. rewrite (skip_w w w0 LW) by (apply starts_app; now apply starts_written).
  rewrite app_length. assert (1 <= length w) by (destruct w; [easy|cbn; lia]).
  destruct (length w + length (written w w0 c ++ w0 ++ bs ")" ++ p)) as [|n] eqn:E; [lia|].
  rewrite (skip_args_one w w0 c LW Hc). cbn [bind]. apply (finish_close _ []). constructor.
Qed.

Lemma no_function w w0 op g a b p arity fn r : layout w w0 -> starts op -> upto stop_sym (op ++ w ++ written w w0 a ++ w ++ written w w0 b ++ w0 ++ bs ")" ++ p) = (op, w ++ written w w0 a ++ w ++ written w w0 b ++ w0 ++ bs ")" ++ p) ->
  arith_name op = None -> compare_name op = Some g -> g <> [] -> all_arity arity g = None -> well_written a -> well_written b -> Forall blank p ->
  run arity fn r (paren w0 (op ++ w ++ written w w0 a ++ w ++ written w w0 b) ++ p) = Panic.
Proof.
  intros LW S U N C Ng A Ha Hb Fp. pose proof LW as (W1 & W2 & W3). unfold run.
  rewrite (transpile_form _ (two g (comp a) (comp b)) p); [|now split|exact Fp|].
  - cbn [bind]. unfold two. destruct g as [|c0 g]; [easy|].
    change (checked arity (map fst r) (CLet (BBody (ECons (CCall (c0 :: g) (ECons (comp a) (ECons (comp b) ENil))) ENil)))) with
      ((match all_arity arity (c0 :: g) with Some n => negb (has (c0 :: g) (map fst r)) && (n =? 2) && checked_all arity (map fst r) (ECons (comp a) (ECons (comp b) ENil)) | None => false end && true) && true).
    rewrite A. reflexivity.
  - intros f Hf. pose proof (proj1 (sz_bound w w0 LW) a Ha). pose proof (proj1 (sz_bound w w0 LW) b Hb).
    unfold paren in Hf. rewrite !app_length in Hf. change (length (bs "(")) with 1 in Hf. change (length (bs ")")) with 1 in Hf.
    destruct f as [|[|f]]; [lia|lia|]. rewrite expr_paren, <- !app_assoc. rewrite (lst_op w w0 LW) by assumption.
    unfold lst_rest. rewrite N, C.
    rewrite (skip_w w w0 LW) by (apply starts_app; now apply starts_written). rewrite (proj1 (parse_all w w0 LW)); [|exact Ha|lia|now apply ended_w]. cbn [bind].
    rewrite (skip_w w w0 LW) by (apply starts_app; now apply starts_written). rewrite (proj1 (parse_all w w0 LW)); [|exact Hb|lia|now apply ended_blank]. cbn [bind].
    now apply finish_close.
Qed.
