(** C116: lisp blocks. *)
From Verif Require Import Common Lisp_Model Lisp_Spec Lisp_Proofs.
Local Open Scope nat_scope.

Definition around (r : list (bytes * val)) : env := map (fun p => (fst p, Some (snd p))) r.

(** Any list of expressions, in any layout, with variables around the block and functions of the program:
    when lisp gives them a value, the block has that value. *)
Theorem C116_lisp_partial arity fn w w0 r l v :
  layout w w0 -> well_written_args l -> exists_args arity (map fst r) l -> Forall (variable_name arity) (map fst r) ->
  lisp_program fn (value_in r) l = Ok v ->
  run arity fn (around r) (written_program w w0 l) = Ok v.
Proof.
  intros LW W E F H. pose proof (map_fst_some r) as M. apply (run_ok arity fn w w0); try assumption; try (unfold around; now rewrite M).
  - unfold lisp_program in *. apply bind_Ok' in H as (vs & Hv & H).
    assert (X : forall (p q : place) l, (forall x, p x = q x) -> lisp_args fn p l = lisp_args fn q l).
    { clear. intros p q l HX.
      assert (A : (forall e (p q : place), (forall x, p x = q x) -> lisp fn p e = lisp fn q e) /\
                  (forall l (p q : place), (forall x, p x = q x) -> lisp_args fn p l = lisp_args fn q l) /\
                  (forall b (p q p' q' : place), (forall x, p x = q x) -> (forall x, p' x = q' x) -> lisp_block fn p p' b = lisp_block fn q q' b)).
      { clear. apply le_all.
        - reflexivity.
        - intros x p q H. cbn [lisp]. now rewrite H.
        - intros o a IHa b IHb p q H. cbn [lisp]. now rewrite (IHa p q H), (IHb p q H).
        - intros o a IHa p q H. cbn [lisp]. now rewrite (IHa p q H).
        - intros c IHc a IHa b IHb p q H. cbn [lisp]. now rewrite (IHc p q H), (IHa p q H), (IHb p q H).
        - intros c IHc a IHa p q H. cbn [lisp]. now rewrite (IHc p q H), (IHa p q H).
        - intros b IHb p q H. change (lisp_block fn p p b = lisp_block fn q q b). now apply IHb.
        - intros f l IHl p q H. change (bind (lisp_args fn p l) (fun vs => fn f vs) = bind (lisp_args fn q l) (fun vs => fn f vs)). now rewrite (IHl p q H).
        - reflexivity.
        - intros e IHe l IHl p q H. change (bind (lisp fn p e) (fun v => bind (lisp_args fn p l) (fun vs => Ok (v :: vs))) = bind (lisp fn q e) (fun v => bind (lisp_args fn q l) (fun vs => Ok (v :: vs)))).
          now rewrite (IHe p q H), (IHl p q H).
        - intros e IHe p q p' q' _ H. change (lisp fn p' e = lisp fn q' e). now apply IHe.
        - intros x e IHe b IHb p q p' q' H H'.
          change (bind (lisp fn p e) (fun v => lisp_block fn p (put x v p') b) = bind (lisp fn q e) (fun v => lisp_block fn q (put x v q') b)).
          rewrite (IHe p q H). destruct (lisp fn q e); cbn [bind]; try reflexivity. apply IHb; [exact H|]. intros y. unfold put. now rewrite H'. }
      now apply A. }
    rewrite (X _ (value_in r)); [rewrite Hv; exact H|]. intros x. unfold around. rewrite lookup_value. now destruct (value_in r x).
  - intros x o. unfold around. rewrite lookup_value. destruct (value_in r x); cbn; congruence.
Qed.
(** (let ((x 2) (y n)) (twice (+ x y)))  (if (< n 5) (car (cons n nil)) nil)   with n = 3 *)
Definition ex_l : les :=
  LArg (LLet (LBind (bs "x") (LNum false (bs "2")) (LBind (bs "y") (LVar (bs "n")) (LBody (LCall (bs "twice") (LArg (LTwo Add (LVar (bs "x")) (LVar (bs "y"))) LEnd))))))
 (LArg (LIf (LTwo Lt (LVar (bs "n")) (LNum true (bs "5"))) (LOne Car (LTwo Cons (LVar (bs "n")) (LVar (bs "nil")))) (LTwo Div (LNum false (bs "17")) (LVar (bs "n")))) LEnd).
Definition ex_arity (f : bytes) : option nat := if beq_bytes f (bs "twice") then Some 1 else None.
Definition ex_fn (f : bytes) (vs : list val) : res val := match vs with [VNum z] => Ok (VNum (2 * z)) | _ => Panic end.
Lemma nodup2 (a b : bytes) : a <> b -> NoDup [a; b].
Proof. intros N. constructor; [now intros [->|[]]|]. constructor; [easy|constructor]. Qed.
Example C116_lisp_example :
  let r := [(bs "n", VNum 3)] in
  layout (bs " ") [] /\ well_written_args ex_l /\ exists_args ex_arity (map fst r) ex_l /\ Forall (variable_name ex_arity) (map fst r) /\
  written_program (bs " ") [] ex_l = bs "(let ((x 2) (y n) ) (twice (+ x y))) (if (< n -5) (car (cons n nil)) (/ 17 n)) " /\
  lisp_args ex_fn (value_in r) ex_l = Ok [VNum 10; VNum 5] /\
  run ex_arity ex_fn (around r) (written_program (bs " ") [] ex_l) = Ok (VNum 5).
Proof.
  intros r. splits; try reflexivity.
  - split; [discriminate|]. split; repeat constructor.
  - unfold ex_l. cbn. unfold numeral, identifier, letter, figure, words. repeat split; try (repeat constructor; lia); try (vm_compute; lia); try discriminate; try (right; vm_compute; discriminate).
    cbn. intuition discriminate.
  - unfold ex_l, variable_name. cbn. repeat split; try tauto; try discriminate; auto.
    + apply nodup2. discriminate.
    + repeat constructor; discriminate.
    + intros x [<-|[<-|[]]]; intuition discriminate.
  - repeat constructor. discriminate.
Qed.

(** A third argument of + - * / is read and dropped. *)
Theorem C116_extra_refuted arity fn w w0 o a b c r : layout w w0 -> In o [Add; Sub; Mul; Div] -> well_written a -> well_written b -> well_written c ->
  run arity fn r (paren w0 (name2 o ++ w ++ written w w0 a ++ w ++ written w w0 b ++ w ++ written w w0 c)) =
  run arity fn r (written w w0 (LTwo o a b)).
Proof.
  intros LW I Ha Hb Hc. unfold run.
  pose proof (extra_arg w w0 o a b c [] LW) as E. rewrite app_nil_r in E. rewrite E; auto; try (intros ->; cbn in I; intuition discriminate).
  pose proof (transpile_form (written w w0 (LTwo o a b)) (comp (LTwo o a b)) []) as T. rewrite app_nil_r in T. rewrite T; [reflexivity|now split|constructor|].
  intros f Hf. pose proof (proj1 (parse_all w w0 LW) (LTwo o a b) (conj Ha Hb) f []) as P. rewrite app_nil_r in P. apply P; [|exact Logic.I].
  pose proof (proj1 (sz_bound w w0 LW) (LTwo o a b) (conj Ha Hb)). lia.
Qed.
Example C116_extra_example : run ex_arity ex_fn [] (bs "(+ 1 2 (* 3 4))") = Ok (VNum 3) /\ run ex_arity ex_fn [] (bs "(+ 1 2)") = Ok (VNum 3).
Proof. now split. Qed.

(** Only one comparison exists: > and the operators of two characters that start with = or ! call functions
    that the runtime does not define. *)
Theorem C116_compare_refuted arity fn w w0 op a b r : layout w w0 -> arity (bs "l_gt") = None -> arity (bs "l_eq") = None ->
  op = bs ">" \/ (exists d, (op = [61%N; d] \/ op = [33%N; d]) /\ (33 <= d <= 126 /\ d <> 40 /\ d <> 41)%N) ->
  well_written a -> well_written b ->
  run arity fn r (paren w0 (op ++ w ++ written w w0 a ++ w ++ written w w0 b)) = Panic.
Proof.
  intros LW A1 A2 O Ha Hb. pose proof LW as (W1 & W2 & W3).
  assert (Q : exists g, starts op /\ Forall (fun c => stop_sym c = false) op /\ arith_name op = None /\ compare_name op = Some g /\ g <> [] /\ all_arity arity g = None).
  { destruct O as [->|(d & O & (D1 & D2) & D3 & D4)].
    - exists (bs "l_gt"). splits; try reflexivity; try (now split); try discriminate; [repeat constructor|exact A1].
    - assert (S : stop_sym d = false).
      { unfold stop_sym, is_space, close, open. assert (E1 : (d =? 32)%N = false) by (apply N.eqb_neq; lia). assert (E2 : (d <=? 13)%N = false) by (apply N.leb_gt; lia).
        apply N.eqb_neq in D3, D4. now rewrite E1, E2, D3, D4, andb_false_r. }
      exists (bs "l_eq"). destruct O as [->| ->]; splits; try reflexivity; try (now split); try discriminate; try exact A2; repeat constructor; exact S. }
  destruct Q as (g & S & F & N & C & Ng & A).
  pose proof (no_function w w0 op g a b [] arity fn r LW S) as R. rewrite !app_nil_r in R. apply R; auto.
  apply upto_run; [exact F|]. exact (ended_w w _ W1 W2).
Qed.
Example C116_compare_example : run ex_arity ex_fn [] (bs "(> 2 1)") = Panic /\ run ex_arity ex_fn [] (bs "(== 2 1)") = Panic /\ run ex_arity ex_fn [] (bs "(= 2 1)") = Panic /\
  run ex_arity ex_fn [] (bs "(< 2 1)") = Ok VNil.
Proof. now splits. Qed.

(** list gives nil, whatever the words behind it; a string is nil. *)
Theorem C116_list_refuted arity fn t : Forall (fun c => c <> 41%N) t -> run arity fn [] (bs "(list " ++ t ++ bs ")") = Ok VNil.
Proof.
  intros F. unfold run. pose proof (transpile_form (bs "(list " ++ t ++ bs ")") CNil []) as T. rewrite app_nil_r in T. rewrite T; [reflexivity|now split|constructor|].
  intros f Hf. rewrite !app_length in Hf. change (length (bs "(list ")) with 6 in Hf. destruct f as [|[|f]]; [lia|lia|].
  change (finish CNil (bs " " ++ t ++ bs ")") = Ok (CNil, [])). unfold finish. change (bs " " ++ t ++ bs ")") with ((32%N :: t) ++ bs ")").
  rewrite (upto_run (fun c => (c =? close)%N) (32%N :: t) (bs ")")); [reflexivity| |reflexivity].
  constructor; [reflexivity|]. eapply Forall_impl; [|exact F]. intros c H. now apply N.eqb_neq.
Qed.
Example C116_list_example : run ex_arity ex_fn [] (bs "(list 1 2 3)") = Ok VNil /\
  (* the first closing parenthesis ends the list *)
  run ex_arity ex_fn [] (bs "(list (+ 1 2) 3)") = Panic.
Proof. now split. Qed.

Theorem C116_string_refuted arity fn t : Forall (fun c => c <> 34%N /\ c <> 92%N) t ->
  run arity fn [] (bs """" ++ t ++ bs """") = Ok VNil /\ run arity fn [] (bs """a\""b"" 5 (cons ""a"" 6)") = Ok (VPair VNil (VNum 6)).
Proof.
  intros F. split; [|reflexivity]. unfold run. pose proof (transpile_form (bs """" ++ t ++ bs """") CNil []) as T. rewrite app_nil_r in T. rewrite T; [reflexivity|now split|constructor|].
  intros f Hf. rewrite !app_length in Hf. change (length (bs """")) with 1 in Hf. destruct f as [|f]; [lia|].
  change (Ok (CNil, string_end (t ++ bs """")) = Ok (CNil, [])). do 2 f_equal. clear -F. induction F as [|c t [A B] _ IH]; [reflexivity|].
  cbn [app string_end]. apply N.eqb_neq in A, B. now rewrite A, B.
Qed.

(** The initialiser of a variable of let sees that variable, without a value, and those before it. *)
Theorem C116_let_refuted arity fn v u :
  lisp fn (value_in [(bs "x", v)]) (LLet (LBind (bs "x") (LVar (bs "x")) (LBody (LVar (bs "x"))))) = Ok v /\
  run arity fn (around [(bs "x", v)]) (bs "(let ((x x)) x)") = UB /\
  lisp fn (value_in [(bs "x", v); (bs "z", u)]) (LLet (LBind (bs "x") (LVar (bs "z")) (LBind (bs "y") (LVar (bs "x")) (LBody (LVar (bs "y")))))) = Ok v /\
  run arity fn (around [(bs "x", v); (bs "z", u)]) (bs "(let ((x z) (y x)) y)") = Ok u.
Proof. splits; reflexivity. Qed.

(** A binding without parentheses: the compiler does not end. *)
Theorem C116_binding_refuted f : top f (bs "(let (x) 1)") = Fuel.
Proof.
  assert (B : forall f, binds f (bs "x) 1)") = Fuel) by (induction f0 as [|f0 IH]; [reflexivity|exact IH]).
  destruct f as [|[|[|f]]]; try reflexivity.
  assert (L : lst (S (S f)) (bs "let (x) 1)") = Fuel).
  { change (lst (S (S f)) (bs "let (x) 1)")) with
      (bind (bind (binds (S f) (bs "x) 1)")) (fun '(vs, r) => match r with [] => Panic | _ :: r => Ok (vs, r) end))
            (fun '(vs, p) => bind (exprs (S f) (skip p)) (fun '(l, p) => finish (CLet (block vs l)) p))).
    rewrite B. reflexivity. }
  change (bind (lst (S (S f)) (bs "let (x) 1)")) (fun '(e, p) => bind (top (S (S f)) p) (fun l => Ok (ECons e l))) = Fuel).
  rewrite L. reflexivity.
Qed.

(** A leading 0 makes a number octal; print is not an expression. *)
Theorem C116_octal_refuted arity fn : run arity fn [] (bs "010") = Ok (VNum 8) /\ decimal (bs "010") = 10%Z /\ run arity fn [] (bs "09") = Panic.
Proof. splits; reflexivity. Qed.
Theorem C116_print_refuted arity fn : run arity fn [] (bs "(+ 1 (print 2))") = Panic /\ run arity fn [] (bs "(if 1 (println 2) 3)") = Panic.
Proof. split; reflexivity. Qed.

(** Parentheses that do not match end the compiler with an error. *)
Theorem C116_unclosed arity fn w w0 o a b r : layout w w0 -> well_written a -> well_written b ->
  run arity fn r (bs "(" ++ w0 ++ name2 o ++ w ++ written w w0 a ++ w ++ written w w0 b) = Panic.
Proof.
  intros LW Ha Hb. pose proof LW as (W1 & W2 & W3). unfold run, transpile. set (t := bs "(" ++ _).
  assert (Lt : 2 + 2 * length (written w w0 a) + 2 * length (written w w0 b) <= 2 * length t).
  { unfold t. rewrite !app_length. change (length (bs "(")) with 1. lia. }
  pose proof (proj1 (sz_bound w w0 LW) a Ha). pose proof (proj1 (sz_bound w w0 LW) b Hb).
  assert (E : expr (2 * length t + 4) t = Panic).
  { destruct (2 * length t + 4) as [|[|f]] eqn:E; [lia|lia|]. unfold t.
    change (lst (S f) (w0 ++ name2 o ++ w ++ written w w0 a ++ w ++ written w w0 b) = Panic).
    rewrite (lst_op w w0 LW); [|destruct o; now split|apply upto_op2; now apply ended_w].
    assert (A : expr f (skip (w ++ written w w0 a ++ w ++ written w w0 b)) = Ok (comp a, w ++ written w w0 b)).
    { rewrite (skip_w w w0 LW) by (apply starts_app; now apply starts_written). apply (proj1 (parse_all w w0 LW)); [exact Ha|lia|now apply ended_w]. }
    assert (B : expr f (skip (w ++ written w w0 b)) = Ok (comp b, [])).
    { rewrite (skip_w w w0 LW) by now apply starts_written. rewrite <- (app_nil_r (written w w0 b)). apply (proj1 (parse_all w w0 LW)); [exact Hb|lia|exact I]. }
    revert A B. generalize (w ++ written w w0 a ++ w ++ written w w0 b). generalize (w ++ written w w0 b). intros q p A B.
    assert (X : forall g, bind (expr f (skip p)) (fun '(a, p) => bind (expr f (skip p)) (fun '(b, p) => finish (two g a b) p)) = Panic).
    { intros g. rewrite A. cbn [bind]. rewrite B. reflexivity. }
    assert (Y : forall g, bind (expr f (skip p)) (fun '(a, p) => bind (expr f (skip p)) (fun '(b, p) => bind (skip_args (S (length p)) (skip p)) (fun p => finish (two g a b) p))) = Panic).
    { intros g. rewrite A. cbn [bind]. rewrite B. reflexivity. }
    destruct o; [exact (Y (bs "l_add"))|exact (Y (bs "l_sub"))|exact (Y (bs "l_mul"))|exact (Y (bs "l_div"))|exact (X (bs "l_lt"))|exact (X (bs "l_cons"))]. }
  destruct (2 * length t + 4) as [|f] eqn:F; [lia|].
  cbn [top]. assert (St : starts t) by now split. rewrite (skip_starts _ St).
  clearbody t. destruct t as [|c t]; [easy|]. destruct St as [_ St]. rewrite St, E. reflexivity.
Qed.
(** So does a missing argument. *)
Theorem C116_missing arity fn w w0 o a r : layout w w0 -> well_written a -> run arity fn r (paren w0 (name2 o ++ w ++ written w w0 a)) = Panic.
Proof.
  intros LW Ha. pose proof LW as (W1 & W2 & W3). unfold run, transpile. set (t := paren _ _).
  assert (Lt : 4 + 2 * length (written w w0 a) <= 2 * length t).
  { unfold t, paren. rewrite !app_length. change (length (bs "(")) with 1. change (length (bs ")")) with 1. lia. }
  pose proof (proj1 (sz_bound w w0 LW) a Ha).
  assert (E : expr (2 * length t + 4) t = Panic).
  { destruct (2 * length t + 4) as [|[|[|f]]] eqn:E; [lia|lia|lia|]. unfold t. rewrite <- (app_nil_r (paren _ _)), expr_paren, <- !app_assoc.
    rewrite (lst_op w w0 LW); [|destruct o; now split|apply upto_op2; now apply ended_w].
    assert (A : expr (S f) (skip (w ++ written w w0 a ++ w0 ++ bs ")" ++ [])) = Ok (comp a, w0 ++ bs ")" ++ [])).
    { rewrite (skip_w w w0 LW) by (apply starts_app; now apply starts_written). apply (proj1 (parse_all w w0 LW)); [exact Ha|lia|now apply ended_blank]. }
    assert (B : expr (S f) (skip (w0 ++ bs ")" ++ [])) = Panic) by (rewrite (skip_w0_close w w0 LW); reflexivity).
    revert A B. generalize (w0 ++ bs ")" ++ []). intros q. generalize (w ++ written w w0 a ++ q). intros p A B.
    assert (X : forall g, bind (expr (S f) (skip p)) (fun '(a, p) => bind (expr (S f) (skip p)) (fun '(b, p) => finish (two g a b) p)) = Panic).
    { intros g. rewrite A. cbn [bind]. rewrite B. reflexivity. }
    assert (Y : forall g, bind (expr (S f) (skip p)) (fun '(a, p) => bind (expr (S f) (skip p)) (fun '(b, p) => bind (skip_args (S (length p)) (skip p)) (fun p => finish (two g a b) p))) = Panic).
    { intros g. rewrite A. cbn [bind]. rewrite B. reflexivity. }
    destruct o; [exact (Y (bs "l_add"))|exact (Y (bs "l_sub"))|exact (Y (bs "l_mul"))|exact (Y (bs "l_div"))|exact (X (bs "l_lt"))|exact (X (bs "l_cons"))]. }
  destruct (2 * length t + 4) as [|f] eqn:F; [lia|].
  cbn [top]. assert (St : starts t) by now split. rewrite (skip_starts _ St).
  clearbody t. destruct t as [|c t]; [easy|]. destruct St as [_ St]. rewrite St, E. reflexivity.
Qed.
Example C116_missing_example : run ex_arity ex_fn [] (bs "(+ 1)") = Panic.
Proof. reflexivity. Qed.
Theorem C116_closer arity fn w w0 l r : layout w w0 -> well_written_args l -> run arity fn r (written_program w w0 l ++ bs ")") = Panic.
Proof.
  intros LW W. unfold run, transpile. pose proof LW as (W1 & W2 & W3).
  enough (T : forall l, well_written_args l -> forall f v, Forall blank v -> 2 * length (written_program w w0 l) + 1 <= f -> top f (v ++ written_program w w0 l ++ bs ")") = Panic).
  { rewrite (T l W _ []); [reflexivity|constructor|]. rewrite app_length. lia. }
  clear l W. induction l as [|e l IH]; intros H f v Fv Hf; (destruct f as [|f]; [lia|]).
  - cbn [top written_program app]. rewrite skip_blank by exact Fv. reflexivity.
  - destruct H as [He Hl]. cbn [written_program] in *. rewrite !app_length in Hf.
    assert (1 <= length w) by (destruct w; [easy|cbn; lia]).
    pose proof (proj1 (sz_bound w w0 LW) e He). rewrite <- !app_assoc.
    pose proof (starts_app _ (w ++ written_program w w0 l ++ bs ")") (starts_written w w0 e He)) as S.
    cbn [top]. rewrite skip_blank by exact Fv. rewrite (skip_starts _ S).
    pose proof (proj1 (parse_all w w0 LW) e He (Datatypes.S f) (w ++ written_program w w0 l ++ bs ")") ltac:(lia) ltac:(now apply ended_w)) as R.
    destruct (written w w0 e ++ w ++ written_program w w0 l ++ bs ")"); [easy|]. destruct S as [_ S]. rewrite S, R. cbn [bind].
    rewrite IH; [reflexivity|exact Hl|exact W2|lia].
Qed.
Example C116_closer_example : run ex_arity ex_fn [] (bs "1 2 )") = Panic /\ run ex_arity ex_fn [] (bs "(+ 1 2") = Panic.
Proof. now split. Qed.

Print Assumptions C116_lisp_partial.
Print Assumptions C116_extra_refuted.
Print Assumptions C116_compare_refuted.
Print Assumptions C116_list_refuted.
Print Assumptions C116_string_refuted.
Print Assumptions C116_let_refuted.
Print Assumptions C116_binding_refuted.
Print Assumptions C116_octal_refuted.
Print Assumptions C116_print_refuted.
Print Assumptions C116_unclosed.
Print Assumptions C116_closer.
Print Assumptions C116_missing.
