(** C70: closures. *)
From Verif Require Import Common Closure_Model Closure_Spec Closure_Proofs.
Local Open Scope nat_scope.

(** ** What is captured *)

(** The analysis captures the variables of the enclosing function that occur free in the body,
    and those in the capture list, each once, in the mode the capture list says and with the
    type the variable was declared with.  The hypotheses are those of [lambda_ok]. *)
Theorem C70_captures_partial ctx lam :
  seen (body lam) ->
  (forall x, local x (body lam) -> ~ free x (body lam)) ->
  (exists l, length l <= 32 /\
     forall x, In x (map fst (explicit lam)) \/ (free x (body lam) /\ ~ In x (params lam) /\ variable ctx x) -> In x l) ->
  (forall x, free x (body lam) -> In x (params lam) \/ variable ctx x \/ global ctx x \/ In x (funcs ctx) \/ In x builtins) ->
  exists caps, analyze ctx lam = Ok caps /\ NoDup (map cname caps) /\
    (forall x, In x (map cname caps) <-> In x (map fst (explicit lam)) \/ (free x (body lam) /\ ~ In x (params lam) /\ variable ctx x)) /\
    Forall (fun c => by_ref c = refers lam (cname c)) caps /\
    Forall (fun c => forall t, declared (cname c) t (scopes ctx) -> ctype c = t) caps.
Proof.
  intros H1 H2 H3 H4. destruct (analyze_ok ctx lam) as (caps & E & ND & Ty & C1 & C2); [unfold well_formed, captures_spec; auto|].
  exists caps. splits; auto.
  3:{ eapply Forall_impl; [|exact Ty]. intros c -> t D. now apply type_declared. }
  - intros x. split.
    + intros I. apply find_cap_name in I.
      assert (D : {In x (map fst (explicit lam))} + {~ In x (map fst (explicit lam))}) by apply (in_dec (list_eq_dec N.eq_dec)).
      destruct D as [D|D]; [now left|]. right.
      assert (F : ~ ~ captures_spec ctx lam x) by (intros F; apply I, C2, F).
      assert (Fr : In x (find_var_refs (body lam)) /\ ~ In x (find_declared_vars (body lam)) /\ ~ In x (params lam) /\ variable ctx x).
      { destruct (in_dec (list_eq_dec N.eq_dec) x (find_var_refs (body lam))) as [R|R].
        - destruct (in_dec (list_eq_dec N.eq_dec) x (find_declared_vars (body lam))) as [L|L].
          { exfalso. apply F. intros [?|(G & _)]; [contradiction|]. apply (H2 x); [|assumption]. now apply decls_local. }
          destruct (in_dec (list_eq_dec N.eq_dec) x (params lam)) as [P|P].
          { exfalso. apply F. intros [?|(_ & G & _)]; contradiction. }
          splits; auto. unfold variable. destruct (in_dec (list_eq_dec N.eq_dec) x (funcs ctx)) as [Fu|Fu].
          { exfalso. apply F. intros [?|(_ & _ & _ & G & _)]; contradiction. }
          destruct (in_dec (list_eq_dec N.eq_dec) x builtins) as [Bu|Bu].
          { exfalso. apply F. intros [?|(_ & _ & _ & _ & G)]; contradiction. }
          splits; auto. destruct (find_place x (scopes ctx)) eqn:Pl; [| |reflexivity]; exfalso; apply F; intros [?|(_ & _ & G & _)]; congruence.
        - exfalso. apply F. intros [?|(G & _)]; [contradiction|]. apply R. now apply free_refs. }
      destruct Fr as (R & L & P & V). splits; auto. destruct (refs_free x _ H1 R) as [|K]; [assumption|].
      exfalso. apply L. now apply decls_local.
    + intros I. apply C1 in I. destruct (find_cap_some _ _ _ I) as (c & Ic & <- & _). now apply in_map.
  - apply Forall_forall. intros c Ic. assert (N : In (cname c) (map cname caps)) by now apply in_map.
    assert (D : find_cap (cname c) caps = Some (by_ref c)).
    { clear -Ic ND. induction caps as [|d caps IH]; [destruct Ic|]. cbn [map find_cap] in *. inversion ND; subst. destruct Ic as [->|Ic].
      - now rewrite beq_bytes_refl.
      - destruct (beq_bytes_spec (cname c) (cname d)) as [E|]; [|auto]. exfalso. apply H1. rewrite <- E. now apply in_map. }
    assert (F : ~ ~ captures_spec ctx lam (cname c)) by (intros F; apply C2 in F; congruence).
    destruct (Bool.bool_dec (by_ref c) (refers lam (cname c))) as [|Ne]; [assumption|]. exfalso. apply F. intros K. apply C1 in K. congruence.
Qed.
(** The capture list between brackets, with at most 32 names *)
Theorem C70_list l rest fuel : length l < fuel -> length (flat_map named l) <= 32 ->
  capture_list fuel (list_toks l ++ rest) false [] = Ok (default_of l, flat_map named l, rest).
Proof.
  intros Lf Ln. destruct l as [|i l].
  - destruct fuel; [cbn in Lf; lia|]. reflexivity.
  - rewrite capture_list_ok; [reflexivity|discriminate|lia|exact Ln].
Qed.
Example C70_list_case : capture_list 9 (list_toks [ByRef (bs "a"); ByValue (bs "b"); AllRef] ++ [CElse]) false [] =
  Ok (true, [(bs "a", true); (bs "b", false)], [CElse]).
Proof. reflexivity. Qed.

(** With more than 32 variables the arrays of the analysis overflow. *)
Theorem C70_limit_refuted ctx l : NoDup l -> 32 < length l -> (forall x, In x l -> variable ctx x) ->
  analyze ctx (mklam [] false [] (Plain (map Var l))) = UB.
Proof.
  intros ND L V. unfold analyze. cbn [explicit explicit_loop bind body find_declared_vars find_var_refs].
  assert (E : flat_map find_var_refs (map Var l) = l) by (clear; induction l as [|x l IH]; [reflexivity|cbn; now rewrite IH]).
  rewrite E. clear E.
  assert (G : forall l caps, NoDup l -> (forall x, In x l -> variable ctx x /\ ~ In x (map cname caps)) -> length caps <= 32 -> 32 < length caps + length l ->
    refs_loop ctx (mklam [] false [] (Plain (map Var l))) [] l caps = UB).
  { assert (W : forall lam, params lam = [] -> default_ref lam = false ->
      forall l caps, NoDup l -> (forall x, In x l -> variable ctx x /\ ~ In x (map cname caps)) -> length caps <= 32 -> 32 < length caps + length l ->
      refs_loop ctx lam [] l caps = UB).
    { clear. intros lam P D. induction l as [|x l IH]; intros caps ND V L1 L2; cbn [length refs_loop] in *; [lia|].
      destruct (V x (or_introl eq_refl)) as ((V1 & V2 & V3) & V4). apply in_list_false in V2, V3, V4. rewrite P, V1, V2, V3, V4. cbn [is_in_list existsb orb].
      unfold add. destruct (Nat.ltb_spec (length caps) 32); [|reflexivity]. cbn [bind]. inversion ND; subst. apply IH; try assumption.
      - intros y I. destruct (V y (or_intror I)) as [Q1 Q2]. split; [assumption|]. rewrite map_app, in_app_iff. cbn. intros [|[->|[]]]; contradiction.
      - rewrite app_length. cbn. lia.
      - rewrite app_length. cbn. lia. }
    intros. now apply W. }
  apply G; auto; cbn [length]; lia.
Qed.
(** A name the compiler does not know, such as a constant of a C header, is captured as a
    variable of type int. *)
Theorem C70_unknown_refuted ctx x : find_place x (scopes ctx) = Nowhere -> ~ In x (funcs ctx) -> ~ In x builtins ->
  analyze ctx (mklam [] false [] (Var x)) = Ok [mkcap x (bs "int") false].
Proof.
  intros P F B. unfold analyze. cbn [explicit explicit_loop bind body find_declared_vars find_var_refs refs_loop params].
  apply in_list_false in F, B. rewrite P, F, B. cbn [is_in_list existsb map orb default_ref]. unfold add. cbn [length app bind].
  assert (E : symbol_type x (scopes ctx) = None).
  { clear F B. induction (scopes ctx) as [|s r IH]; [reflexivity|]. cbn [find_place symbol_type] in *. destruct (find_in x s); [destruct r; discriminate|auto]. }
  unfold type_name. now rewrite E.
Qed.

(** ** What closures do *)
Section Run.
Variable value : Type.
Notation mem := (mem value).

(** For every history of assignments, closures created and called, and the return of the
    function: where the specification has an outcome, the generated program has the same. *)
Theorem C70_history_partial ctx (m : mem) w l w' scs out :
  holds m w -> describes ctx w -> Forall (op_ok ctx) l -> steps_spec (w, [], []) l = Some (w', scs, out) ->
  exists m' cs, steps ctx (m, [], []) l = Ok (m', cs, out) /\
    (forall x, get x (globals m') = sglobals w' x) /\
    (if alive w' then exists f, frame m' = Some f /\ forall x, get x f = svars w' x else frame m' = None).
Proof.
  intros (H1 & H2 & H3 & H4) D Fo St. destruct (steps_ok value ctx l (m, [], []) (w, [], []) (w', scs, out) Fo) with (2 := St) as ([[m' cs] out'] & E & R).
  - cbv beta iota delta [state_rel]. splits; auto.
    + split; [exact H1|]. now rewrite H3.
    + split; [intros j c n|intros i j c d n]; destruct j; try discriminate; destruct i; discriminate.
    + intros [|j] sc c; discriminate.
  - cbv beta iota delta [state_rel] in R. destruct R as ([R1 R2] & _ & -> & _). exists m', cs. splits; auto.
Qed.

(** ** Where it goes wrong *)

(** A closure inside another one cannot capture what that one has captured: the new context
    is read instead of the enclosing one. *)
Theorem C70_nested_refuted cur (m : mem) x t ps p :
  (find_cap x cur = Some false -> create (Some cur) m [mkcap x t false] ps p = UB) /\
  (find_cap x cur = Some true -> forall r, create (Some cur) m [mkcap x t r] ps p = UB) /\
  (find_cap x cur = Some false -> exists m', create (Some cur) m [mkcap x t true] ps p = Ok (m', mkclo ([mkcap x t true], ps, p) (Some (length (heap m)))) /\
     load m' [] (Some (length (heap m))) (Deref x) = UB).
Proof.
  assert (N : forall u : fields value, nth_error (heap m ++ [u]) (length (heap m)) = Some u).
  { intros u. rewrite nth_error_app2, Nat.sub_diag by lia. reflexivity. }
  splits.
  - intros H. cbn [create capture_stmts map cname by_ref]. cbn [codegen_var]. rewrite H. cbn [fill eval_rhs].
    unfold load_field. cbn [heap]. rewrite N. cbn [get]. rewrite beq_bytes_refl. reflexivity.
  - intros H r. cbn [create capture_stmts map cname by_ref]. destruct r.
    + rewrite H. cbn [fill eval_rhs]. unfold load_field. cbn [heap]. rewrite N. cbn [get]. rewrite beq_bytes_refl. reflexivity.
    + cbn [codegen_var]. rewrite H. cbn [fill eval_rhs load]. unfold load_field. cbn [heap]. rewrite N. cbn [get]. rewrite beq_bytes_refl. reflexivity.
  - intros H. eexists. cbn [create capture_stmts map cname by_ref]. rewrite H. cbn [fill eval_rhs]. unfold load_field, store_field. cbn [heap].
    rewrite N. cbn [get]. rewrite beq_bytes_refl. cbn [bind heap]. split; [reflexivity|].
    assert (K : forall u, nth_error (update (length (heap m)) (put x u) (heap m ++ [[(x, Uninit)]])) (length (heap m)) = Some [(x, u)]).
    { intros u. rewrite nth_update, Nat.eqb_refl, N. cbn [option_map put]. now rewrite beq_bytes_refl. }
    cbn [load]. unfold load_field. cbn [heap]. rewrite K. cbn [get]. rewrite beq_bytes_refl. cbn [bind]. rewrite K. cbn [get]. rewrite beq_bytes_refl. reflexivity.
Qed.
(** A closure that refers to a variable of a function that has returned *)
Theorem C70_outlives_refuted (m : mem) caps n fs x k ps : frame m = None -> nth_error (heap m) n = Some fs ->
  find_cap x caps = Some true -> get x fs = Some (ToVar x) -> call m (mkclo (caps, ps, Get x k) (Some n)) [] = UB.
Proof.
  intros F H C G. unfold call. cbn [code env run_body codegen_var]. rewrite C. cbn [load]. unfold load_field. rewrite H, G. cbn [bind]. now rewrite F.
Qed.
(** A variable used only where the analysis does not look (a cast, a conditional expression, a
    struct literal, a print statement, an inner closure) is not captured: the C compiler does
    not find it. *)
Theorem C70_unseen_refuted ctx l (m : mem) x k ps d :
  analyze ctx (mklam ps d [] (Other l)) = Ok [] /\
  exists c, create None m [] ps (Get x k) = Ok (m, c) /\ (~ In x ps -> get x (globals m) = None -> forall args, call m c args = Panic).
Proof.
  split; [reflexivity|]. eexists. split; [reflexivity|]. intros N G args. unfold call. cbn [code env run_body codegen_var find_cap load hidden].
  assert (E : get x (combine ps args) = None).
  { destruct (get x (combine ps args)) eqn:E; [|reflexivity]. exfalso. apply N.
    assert (I : In x (map fst (combine ps args))) by (apply get_in; congruence).
    clear -I. revert args I. induction ps as [|y ps IH]; intros [|a args]; cbn; try contradiction. intros [->|I]; [now left|right; eauto]. }
  now rewrite E, G.
Qed.
(** A variable that is declared in an inner block of the closure is taken for a local one in
    the rest of the body too. *)
Theorem C70_inner_refuted ctx x ps d : free x (Block [Block [Decl x Leaf]; Var x]) /\
  analyze ctx (mklam ps d [] (Block [Block [Decl x Leaf]; Var x])) = Ok [].
Proof.
  split.
  - apply f_block. apply fs_later; [exact (fun F => F)|]. apply fs_here. constructor.
  - unfold analyze. cbn [explicit explicit_loop bind body find_declared_vars find_var_refs flat_map app refs_loop].
    unfold is_in_list at 2. cbn [existsb]. rewrite beq_bytes_refl. cbn [orb]. now rewrite orb_true_r.
Qed.
(** A parameter with the name of an explicit capture is never read. *)
Theorem C70_parameter_refuted caps n (m : mem) fs x v a r : nth_error (heap m) n = Some fs -> find_cap x caps = Some false ->
  get x fs = Some (Val v) -> run_body caps (Some n) m ((x, a) :: r) (Get x (@Done value)) = Ok (v, m).
Proof. intros H C G. cbn [run_body codegen_var]. rewrite C. cbn [load]. unfold load_field. rewrite H, G. reflexivity. Qed.
(** A constant declared in the closure is not local: with an outer variable of the same name
    that one is captured, and read instead. *)
Theorem C70_const_refuted ctx x : variable ctx x -> ~ free x (Block [Const x Leaf; Var x]) /\
  (analyze ctx (mklam [] false [] (Block [Const x Leaf; Var x])) = Ok [mkcap x (type_name ctx x) false]) /\
  forall (m : mem) n fs v a t r, nth_error (heap m) n = Some fs -> get x fs = Some (Val v) ->
    run_body [mkcap x t false] (Some n) m r (New x a (Get x (@Done value))) = Ok (v, m).
Proof.
  intros (V1 & V2 & V3). splits.
  - intros F. inversion F as [| |? Fs| | | | | | | | | | | |]; subst. inversion Fs as [? ? Fn|? ? D]; subst.
    + inversion Fn; subst. match goal with H : free _ Leaf |- _ => inversion H end.
    + now apply D.
  - unfold analyze. cbn [explicit explicit_loop bind body find_declared_vars find_var_refs flat_map app refs_loop params].
    apply in_list_false in V2, V3. rewrite V1, V2, V3. reflexivity.
  - intros m n fs v a t r H G. cbn [run_body codegen_var find_cap cname by_ref]. rewrite beq_bytes_refl. cbn [load]. unfold load_field. rewrite H, G. reflexivity.
Qed.
(** A variable with the name of a function is not captured. *)
Theorem C70_function_refuted ctx x d : In x (funcs ctx) -> find_place x (scopes ctx) = AtLocal ->
  analyze ctx (mklam [] d [] (Var x)) = Ok [].
Proof.
  intros F P. unfold analyze. cbn [explicit explicit_loop bind body find_declared_vars find_var_refs refs_loop]. apply in_list in F. rewrite F.
  now rewrite orb_true_r.
Qed.
(** A variable called ctx cannot be captured: the name stands for the context itself. *)
Theorem C70_ctx_refuted (m : mem) t ps p r : create None m [mkcap (bs "ctx") t r] ps p = Panic.
Proof. cbn [create capture_stmts map cname by_ref]. destruct r; reflexivity. Qed.
End Run.

(** ** A concrete case *)
Definition ex_ctx := mkctx [[(bs "a", Some (bs "int")); (bs "b", Some (bs "int"))]; [(bs "g", Some (bs "int"))]] [bs "main"].
(** [fn[&a](k) { let t = a + b; a = t + g * k; return a; }] *)
Definition ex_lam := mklam [bs "k"] false [(bs "a", true)]
  (Block [Decl (bs "t") (Plain [Var (bs "a"); Var (bs "b")]); Plain [Var (bs "a"); Plain [Var (bs "t"); Var (bs "g"); Var (bs "k")]]; Plain [Var (bs "a")]]).
Definition ex_prg : prog Z :=
  Get (bs "a") (fun a => Get (bs "b") (fun b => New (bs "t") (a + b)%Z (
  Get (bs "t") (fun t => Get (bs "g") (fun g => Get (bs "k") (fun k => Put (bs "a") (t + g * k)%Z (
  Get (bs "a") (fun a => Done a)))))))).
Definition ex_w := mkworld (fun x => if beq_bytes x (bs "g") then Some 10%Z else None)
  (fun x => if beq_bytes x (bs "a") then Some 1%Z else if beq_bytes x (bs "b") then Some 2%Z else None) true.
Definition ex_m := mkmem [(bs "g", 10%Z)] (Some [(bs "a", 1%Z); (bs "b", 2%Z)]) [].
Definition ex_ops : list (op Z) := [Create ex_lam ex_prg; Assign (bs "b") 100%Z; Call 0 [3%Z]; AssignGlobal (bs "g") 0%Z; Call 0 [3%Z]].

Lemma seen_lam : seen (body ex_lam).
Proof. apply s_block. constructor; [apply s_decl; repeat constructor|]. repeat (constructor; [apply s_expr; repeat constructor|]). constructor. Qed.
Lemma free_in x : free x (body ex_lam) -> In x (map bs ["a"; "b"; "t"; "g"; "k"]%string).
Proof. intros F. apply free_refs in F; [|apply seen_lam]. cbn in *. tauto. Qed.
Lemma local_in x : local x (body ex_lam) -> x = bs "t".
Proof. intros L. apply decls_local in L; [|apply seen_lam]. cbn in L. destruct L as [<-|[]]. reflexivity. Qed.
Lemma t_local : ~ free (bs "t") (body ex_lam).
Proof.
  intros F. inversion F as [| |? Fs| | | | | | | | | | | |]; subst. inversion Fs as [? ? Fn|? ? D]; subst.
  - inversion Fn; subst. match goal with H : free _ _ |- _ => apply free_refs in H; [|repeat constructor] end.
    cbn in *. destruct H0 as [H|[H|[]]]; discriminate H.
  - now apply D.
Qed.
Lemma var_in x : x = bs "a" \/ x = bs "b" -> variable ex_ctx x.
Proof. intros [->| ->]; unfold variable; splits; try reflexivity; cbn; intuition discriminate. Qed.
Example C70_case : holds ex_m ex_w /\ describes ex_ctx ex_w /\ Forall (op_ok ex_ctx) ex_ops /\
  exists w' scs, steps_spec (ex_w, [], []) ex_ops = Some (w', scs, [33; 35]%Z) /\ svars w' (bs "a") = Some 35%Z /\ svars w' (bs "b") = Some 100%Z.
Proof.
  assert (Fa : forall x l, In (Var x) l -> free x (Plain l)) by (intros x l I; eapply f_plain; [exact I|constructor]).
  assert (F1 : forall x, In (Var x) [Var (bs "a"); Var (bs "b")] -> free x (body ex_lam)).
  { intros x I. apply f_block, fs_here, f_decl, Fa, I. }
  assert (F2 : free (bs "g") (body ex_lam)).
  { apply f_block, fs_later; [cbn; discriminate|]. apply fs_here. eapply f_plain; [right; left; reflexivity|]. apply Fa. cbn. auto. }
  splits.
  - unfold holds. splits; try reflexivity.
    eexists. split; [reflexivity|]. intros x. reflexivity.
  - split; intros x; cbn [svars sglobals ex_w scopes ex_ctx find_place find_in].
    + destruct (beq_bytes_spec x (bs "a")) as [->|Na]; [now split|]. destruct (beq_bytes_spec x (bs "b")) as [->|Nb]; [now split|].
      destruct (beq_bytes_spec (bs "a") x); [congruence|]. destruct (beq_bytes_spec (bs "b") x); [congruence|].
      destruct (beq_bytes (bs "g") x); split; congruence.
    + destruct (beq_bytes_spec x (bs "g")) as [->|]; [reflexivity|congruence].
  - unfold ex_ops. apply Forall_cons; [|repeat constructor]. cbn [op_ok]. unfold lambda_ok. splits.
    + apply seen_lam.
    + intros x L. apply local_in in L. subst x. apply t_local.
    + intros x I. cbn in I. destruct I as [<-|[]]. splits.
      * apply var_in. now left.
      * cbn. intuition discriminate.
      * intros L. apply local_in in L. discriminate L.
    + exists [bs "a"; bs "b"]. split; [cbn; lia|]. intros x [I|(F & P & V1 & _)].
      * cbn in I. destruct I as [<-|[]]. now left.
      * apply free_in in F. cbn in F, P. destruct F as [<-|[<-|[<-|[<-|[<-|[]]]]]]; cbn; auto; discriminate V1.
    + intros x F. pose proof F as F'. apply free_in in F. cbn in F. destruct F as [<-|[<-|[<-|[<-|[<-|[]]]]]].
      * right; left. apply var_in. now left.
      * right; left. apply var_in. now right.
      * exfalso. now apply t_local.
      * right; right; left. reflexivity.
      * left. now left.
    + intros x [F|[F|[F|F]]].
      * apply free_in in F. cbn in F. destruct F as [<-|[<-|[<-|[<-|[<-|[]]]]]]; discriminate.
      * cbn in F. destruct F as [<-|[]]. discriminate.
      * apply local_in in F. subst x. discriminate.
      * cbn in F. destruct F as [<-|[]]. discriminate.
    + assert (Va : free (bs "a") (body ex_lam) /\ (variable ex_ctx (bs "a") \/ global ex_ctx (bs "a"))) by (split; [apply F1; now left|left; apply var_in; now left]).
      assert (Vb : free (bs "b") (body ex_lam) /\ (variable ex_ctx (bs "b") \/ global ex_ctx (bs "b"))) by (split; [apply F1; right; now left|left; apply var_in; now right]).
      unfold ex_prg. cbn [follows]. split; [now right|]. intros a. split; [now right|]. intros b. split.
      { apply l_in with (m := Decl (bs "t") (Plain [Var (bs "a"); Var (bs "b")])); [apply c_block; now left|apply l_here; reflexivity]. }
      split; [left; now left|]. intros t. split; [right; split; [exact F2|right; reflexivity]|]. intros g. split; [left; cbn; auto|]. intros k.
      split; [now right|]. split; [now right|]. intros _. exact I.
  - eexists. eexists. split; [reflexivity|]. split; reflexivity.
Qed.
(** Assigning to a variable captured by value is accepted and changes the closure's own copy,
    which the next call sees; the README says that it is an error. *)
Theorem C70_assign_refuted : exists m' cs,
  steps ex_ctx (ex_m, [], []) [Create (mklam [] false [] (Plain [Var (bs "a"); Var (bs "a")])) (Get (bs "a") (fun a => Put (bs "a") (a + 1)%Z (Get (bs "a") (fun a => Done a)))); Call 0 []; Call 0 []] =
  Ok (m', cs, [2; 3]%Z) /\ frame m' = frame ex_m.
Proof. eexists. eexists. split; reflexivity. Qed.
(** References to a function's variables after its return, and their use *)
Example C70_leave_case : steps ex_ctx (ex_m, [], []) (ex_ops ++ [Leave; Call 0 [1%Z]]) = UB.
Proof. reflexivity. Qed.

Print Assumptions C70_captures_partial.
Print Assumptions C70_history_partial.
Print Assumptions C70_list.
Print Assumptions C70_limit_refuted.
Print Assumptions C70_unknown_refuted.
Print Assumptions C70_nested_refuted.
Print Assumptions C70_outlives_refuted.
Print Assumptions C70_unseen_refuted.
Print Assumptions C70_inner_refuted.
Print Assumptions C70_parameter_refuted.
Print Assumptions C70_const_refuted.
Print Assumptions C70_function_refuted.
Print Assumptions C70_ctx_refuted.
Print Assumptions C70_assign_refuted.
