(** C72: await gives back what an async function returned. *)
From Verif Require Import Common Async_Model Async_Spec Async_Proofs.
Local Open Scope nat_scope.

(** For every history of calls, returns and awaits without failures, whatever the order in
    which the threads run: there is no undefined behaviour, the functions get the arguments of
    their calls, the awaits give what the functions returned, and all memory has been freed
    when every call has been awaited.  Restricted to result types other than floats, strings,
    aliases and pointers to other things than numbers, to numbers of 32 bits when a variable
    is awaited, and to histories in which no allocation fails. *)
Theorem C72_await_partial decl addr round es : history decl es (mkideal [] []) ->
  exists s, run decl addr round es init = Ok s /\
  let x := ideal_run es (mkideal [] []) in
  outs s = seen x /\
  Forall2 (fun t f => passed t = if running f then Some (given f) else None) (tasks s) (futures x) /\
  (Forall (fun f => taken f = true /\ answer f <> None) (futures x) -> Forall (eq Gone) (heap s)).
Proof.
  intros H. destruct (run_inv decl addr round es _ _ _ (init_inv decl) H) as (o & s & R & [I1 I2 I3 I4]). exists s. split; [assumption|]. cbv zeta. split; [assumption|]. split.
  - clear -I1 I3. assert (K : forall i t f, nth_error (tasks s) i = Some t -> nth_error (futures (ideal_run es (mkideal [] []))) i = Some f -> passed t = if running f then Some (given f) else None).
    { intros i t f E1 E2. destruct (I3 i t f E1 E2) as [L _]. apply (l_passed _ _ _ _ L). }
    clear I3. revert I1 K. generalize (futures (ideal_run es (mkideal [] []))). generalize (tasks s). intros l. induction l as [|t l IH]; intros [|f l'] E K; try discriminate E; constructor.
    + now apply (K 0).
    + apply IH; [now injection E|]. intros i. apply (K (S i)).
  - intros A. apply Forall_forall. intros b B. apply In_nth_error in B as (p & B). destruct (I4 p b B) as [->|(i & t & f & E1 & E2 & E3)]; [reflexivity|].
    rewrite Forall_forall in A. destruct (A f (nth_error_In _ _ E2)) as [A1 A2]. unfold own in E3. destruct (answer f); [|contradiction]. rewrite A1 in E3. discriminate E3.
Qed.
Definition ex_decl (n : bytes) : ckind := KStruct n.
Definition point := TStruct (bs "Point").
Definition ex_history : list event :=
  [Call TI64 [VInt 21] true true; Call point [VInt 5; VInt 7] true true; Begin 1; Begin 0; Await true 1; Return 0 (VInt (2 ^ 40)) true; Await false 0;
   Return 1 (VStruct (bs "Point") [5; 7]%Z) true; Await true 1].
Example C72_await_case : history ex_decl ex_history (mkideal [] []) /\
  seen (ideal_run ex_history (mkideal [] [])) = [VInt (2 ^ 40); VStruct (bs "Point") [5; 7]%Z] /\
  Forall (fun f => taken f = true /\ answer f <> None) (futures (ideal_run ex_history (mkideal [] []))).
Proof.
  split; [|split; [reflexivity|]].
  - assert (O : ordinary (bs "Point")).
    { split; [|split].
      - intros p r H E. cbn in H. repeat (destruct H as [<-|H]; [discriminate E|]). destruct H.
      - intros H. cbn in H. repeat (destruct H as [H|H]; [discriminate H|]). destruct H.
      - intros H. cbn in H. repeat (destruct H as [H|H]; [discriminate H|]). destruct H. }
    unfold ex_history. cbn [history ideal_step proper nth_error futures seen app replace].
    split; [split; [eapply u_int; reflexivity|auto]|]. split; [split; [apply u_struct; [assumption|reflexivity]|auto]|]. split; [exact Logic.I|]. split; [exact Logic.I|].
    split; [eexists; split; [reflexivity|]; split; [reflexivity|]; cbn; discriminate|].
    split; [split; [reflexivity|]; intros f [= <-]; cbn; lia|].
    split; [eexists; split; [reflexivity|]; split; [reflexivity|]; discriminate|].
    split; [split; [reflexivity|]; intros f [= <-]; cbn; reflexivity|].
    split; [eexists; split; [reflexivity|]; split; [reflexivity|]; cbn; discriminate|exact Logic.I].
  - cbn. repeat constructor; cbn; discriminate.
Qed.

(** ** The struct of arguments *)
Definition plain_param (p : bytes * bytes) : Prop :=
  let (t, n) := p in ~ In (ch ",") t /\ ~ In (ch ",") n /\ ~ In (ch " ") n /\ t <> [] /\ hd_error t <> Some (ch " ").
Fixpoint text_size (ps : list (bytes * bytes)) : nat :=
  match ps with [] => 0 | (t, n) :: ps => length t + length n + 3 + text_size ps end.
Definition rest_text (ps : list (bytes * bytes)) : bytes := flat_map (fun '(t, n) => bs ", " ++ t ++ bs " " ++ n) ps.
Lemma convert_rest ps : forall buf c, buf <> [] -> c + length ps <= 16 -> length buf + text_size ps <= 1023 -> convert_loop buf c ps = Ok (buf ++ rest_text ps).
Proof.
  induction ps as [|[t n] ps IH]; intros buf c B C L; cbn [convert_loop rest_text flat_map]; [now rewrite app_nil_r|]. cbn [length text_size] in *.
  destruct (Nat.leb_spec 16 c); [lia|]. destruct buf as [|b buf]; [contradiction|]. set (B' := b :: buf) in *.
  destruct (Nat.leb_spec 1024 (length (B' ++ bs ", " ++ t ++ bs " " ++ n))) as [X|_].
  { rewrite !app_length in X. cbn in X, L. lia. }
  rewrite IH; [|subst B'; discriminate|lia|]; [unfold rest_text; rewrite <- !app_assoc; reflexivity|]. rewrite !app_length. cbn in *. lia.
Qed.
Lemma pieces_until a s : forall cur, ~ In (ch ",") a -> cur ++ a <> [] -> pieces cur (a ++ ch "," :: s) = (cur ++ a) :: pieces [] s.
Proof.
  induction a as [|c a IH]; intros cur N E; cbn [app pieces].
  - rewrite N.eqb_refl. rewrite app_nil_r in *. destruct cur; [contradiction|reflexivity].
  - destruct (N.eqb_spec c (ch ",")) as [->|_]; [exfalso; apply N; now left|]. rewrite IH; [now rewrite <- app_assoc|intros I; apply N; now right|].
    rewrite <- app_assoc. assumption.
Qed.
Lemma pieces_last a : forall cur, ~ In (ch ",") a -> cur ++ a <> [] -> pieces cur a = [cur ++ a].
Proof.
  induction a as [|c a IH]; intros cur N E; cbn [app pieces].
  - rewrite app_nil_r in *. destruct cur; [contradiction|reflexivity].
  - destruct (N.eqb_spec c (ch ",")) as [->|_]; [exfalso; apply N; now left|]. rewrite IH; [now rewrite <- app_assoc|intros I; apply N; now right|].
    rewrite <- app_assoc. assumption.
Qed.
Lemma no_comma t n : plain_param (t, n) -> ~ In (ch ",") (t ++ bs " " ++ n).
Proof. intros (A & B & _) I. apply in_app_or in I as [I|I]; [now apply A|]. cbn in I. destruct I as [I|I]; [discriminate I|now apply B]. Qed.
Lemma pieces_rest ps : forall a, Forall plain_param ps -> ~ In (ch ",") a -> a <> [] ->
  pieces [] (a ++ rest_text ps) = a :: map (fun '(t, n) => bs " " ++ t ++ bs " " ++ n) ps.
Proof.
  induction ps as [|[t n] ps IH]; intros a F N E; cbn [rest_text flat_map map]; [rewrite app_nil_r; now apply (pieces_last a [])|].
  inversion F as [|? ? P F']; subst.
  replace (a ++ (bs ", " ++ t ++ bs " " ++ n) ++ flat_map (fun '(t0, n0) => bs ", " ++ t0 ++ bs " " ++ n0) ps) with (a ++ ch "," :: ((bs " " ++ t ++ bs " " ++ n) ++ rest_text ps)) by (cbn; now rewrite <- ?app_assoc).
  rewrite pieces_until; [|assumption|assumption]. cbn [app]. f_equal. apply IH; [assumption| |discriminate].
  intros I. cbn in I. destruct I as [I|I]; [discriminate I|]. now apply (no_comma t n P).
Qed.
Lemma last_space_at t n : ~ In (ch " ") n -> last_space (t ++ bs " " ++ n) = Some (t, n).
Proof.
  intros N. assert (E : last_space n = None).
  { induction n as [|c n IH]; [reflexivity|]. cbn [last_space]. rewrite IH by (intros I; apply N; now right). destruct (N.eqb_spec c (ch " ")) as [->|]; [exfalso; apply N; now left|reflexivity]. }
  induction t as [|c t IH]; [cbn; now rewrite E|]. cbn [app last_space] in *. now rewrite IH.
Qed.
Lemma trim_id t n : plain_param (t, n) -> trim (t ++ bs " " ++ n) = t ++ bs " " ++ n.
Proof. intros (_ & _ & _ & E & H). destruct t as [|c t]; [contradiction|]. cbn [app trim hd_error] in *. destruct (N.eqb_spec c (ch " ")) as [->|]; [now destruct H|reflexivity]. Qed.
Lemma fields_rest ps : forall k, Forall plain_param ps -> k + length ps <= 32 -> fields_loop k (map (fun '(t, n) => bs " " ++ t ++ bs " " ++ n) ps) = Ok ps.
Proof.
  induction ps as [|[t n] ps IH]; intros k F L; [reflexivity|]. inversion F as [|? ? P F']; subst. cbn [map fields_loop].
  change (trim (bs " " ++ t ++ bs " " ++ n)) with (trim (t ++ bs " " ++ n)). rewrite (trim_id t n P), last_space_at by apply P.
  cbn [length] in L. destruct (Nat.leb_spec 32 k); [lia|]. rewrite IH by (auto; lia). reflexivity.
Qed.
(** Up to 16 parameters in up to 1023 bytes, whose types have no comma, become its fields. *)
Theorem C72_fields_partial ps : Forall plain_param ps -> length ps <= 16 -> text_size ps <= 1023 ->
  exists text, convert_args ps = Ok text /\ fields text = Ok ps.
Proof.
  destruct ps as [|[t n] ps]; intros F L S1; [exists []; split; reflexivity|]. inversion F as [|? ? P F']; subst. cbn [text_size length] in *.
  exists ((t ++ bs " " ++ n) ++ rest_text ps). split.
  - unfold convert_args. cbn [convert_loop app]. destruct (Nat.leb_spec 16 0); [lia|].
    destruct (Nat.leb_spec 1024 (length (t ++ bs " " ++ n))) as [X|_]; [rewrite !app_length in X; cbn in X; lia|].
    apply convert_rest; [destruct t; discriminate|lia|]. rewrite !app_length. cbn. lia.
  - unfold fields. rewrite pieces_rest; [|assumption|now apply no_comma|destruct t; discriminate]. cbn [fields_loop].
    rewrite (trim_id t n P), last_space_at by apply P. destruct (Nat.leb_spec 32 0); [lia|]. rewrite fields_rest by (auto; lia). reflexivity.
Qed.
Example C72_fields_case : convert_args [(bs "unsigned int", bs "a"); (bs "char*", bs "text")] = Ok (bs "unsigned int a, char* text") /\
  fields (bs "unsigned int a, char* text") = Ok [(bs "unsigned int", bs "a"); (bs "char*", bs "text")].
Proof. split; reflexivity. Qed.
(** More than 16 parameters write behind the arrays of parse_and_convert_args. *)
Theorem C72_params_refuted ps : 16 < length ps -> convert_args ps = UB.
Proof.
  intros L. unfold convert_args. assert (K : forall ps buf c, 16 < c + length ps -> c <= 16 -> convert_loop buf c ps = UB).
  { clear. induction ps as [|[t n] ps IH]; intros buf c L C; [cbn in L; lia|]. cbn [convert_loop length] in *. destruct (Nat.leb_spec 16 c); [reflexivity|].
    destruct (1024 <=? _); [reflexivity|]. apply IH; lia. }
  apply K; lia.
Qed.
(** A type with a comma in it is cut. *)
Theorem C72_comma_refuted : fields (bs "int (*f)(int, int), int x") <> Ok [(bs "int (*)(int, int)", bs "f"); (bs "int", bs "x")] /\
  fields (bs "int (*f)(int, int), int x") = Ok [(bs "int", bs "(*f)(int"); (bs "int", bs "x")].
Proof. split; [discriminate|reflexivity]. Qed.

(** ** What does not come back *)

(** A call, its thread, and an await *)
Definition round_trip (r : ty) (v : value) (variable : bool) : list event :=
  [Call r [] true true; Begin 0; Return 0 v true; Await variable 0].
(** Results of type float and double lose their fraction. *)
Theorem C72_float_refuted decl addr round t n k variable : t = TF32 \/ t = TF64 -> (- 2 ^ 63 * 2 ^ Z.of_nat k < n < 2 ^ 63 * 2 ^ Z.of_nat k)%Z ->
  exists s, run decl addr round (round_trip t (VFloat n k) variable) init = Ok s /\ outs s = [VFloat (round (Z.quot n (2 ^ Z.of_nat k))) 0].
Proof.
  intros T B. assert (P : (0 < 2 ^ Z.of_nat k)%Z) by lia.
  assert (Q : (- 2 ^ 63 <= Z.quot n (2 ^ Z.of_nat k) < 2 ^ 63)%Z).
  { destruct (Z.lt_ge_cases n 0).
    - assert (E : Z.quot n (2 ^ Z.of_nat k) = (- ((- n) / 2 ^ Z.of_nat k))%Z) by (rewrite <- (Z.opp_involutive n) at 1; rewrite Z.quot_opp_l by lia; rewrite Z.quot_div_nonneg by lia; reflexivity).
      rewrite E. assert ((- n) / 2 ^ Z.of_nat k < 2 ^ 63)%Z by (apply Z.div_lt_upper_bound; lia). assert (0 <= (- n) / 2 ^ Z.of_nat k)%Z by (apply Z.div_pos; lia). lia.
    - rewrite Z.quot_div_nonneg by lia. assert (n / 2 ^ Z.of_nat k < 2 ^ 63)%Z by (apply Z.div_lt_upper_bound; lia). assert (0 <= n / 2 ^ Z.of_nat k)%Z by (apply Z.div_pos; lia). lia. }
  assert (L : to_long (VFloat n k) = Ok (WNum (Z.quot n (2 ^ Z.of_nat k)))).
  { unfold to_long. destruct (Z.leb_spec (- 2 ^ 63) (Z.quot n (2 ^ Z.of_nat k))); [|lia]. destruct (Z.ltb_spec (Z.quot n (2 ^ Z.of_nat k)) (2 ^ 63)); [|lia]. reflexivity. }
  exists (mkst [Gone] [mktask t true (Some 0) (Some []) (Some (WNum (Z.quot n (2 ^ Z.of_nat k)))) true] [VFloat (round (Z.quot n (2 ^ Z.of_nat k))) 0]). split; [|reflexivity].
  assert (M : runner_mode (type_to_string t) = AsLong) by (destruct T as [-> | ->]; reflexivity).
  unfold round_trip. cbn [run step bind]. unfold call, init. cbn [heap tasks outs app length bind]. unfold begin. cbn [heap tasks outs nth_error bind replace].
  unfold finish. cbn [heap tasks outs nth_error]. cbv zeta. rewrite M, L. cbn [bind release heap tasks outs nth_error replace].
  destruct T as [-> | ->], variable; reflexivity.
Qed.
(** Results of type string, and pointers to anything but numbers, come back as the address of
    the box they were put in, and the box stays allocated. *)
Theorem C72_pointer_refuted decl addr round t a variable : In t [TString; TPtr TChar; TPtr TVoid; TPtr TBool; TPtr TF64; TPtr TString; TPtr (TStruct (bs "Point"))] ->
  exists s, run decl addr round (round_trip t (VPtr a) variable) init = Ok s /\ outs s = [VPtr (wrap 64 false (addr 1))] /\
  heap s = [Gone; Box (type_to_string t) (VPtr a)].
Proof.
  intros H. exists (mkst [Gone; Box (type_to_string t) (VPtr a)] [mktask t true (Some 0) (Some []) (Some (WBlock 1)) true] [VPtr (wrap 64 false (addr 1))]). split; [|split; reflexivity].
  repeat (destruct H as [H|H]; [subst t; destruct variable; reflexivity|]). destruct H.
Qed.
(** An alias of a number, awaited directly: likewise. *)
Theorem C72_alias_refuted decl addr round z : exists s, run decl addr round (round_trip (TAlias (bs "Id") TInt) (VInt z) false) init = Ok s /\
  outs s = [VInt (wrap 32 true (addr 1))] /\ heap s = [Gone; Box (bs "Id") (VInt z)].
Proof. eexists. split; [reflexivity|split; reflexivity]. Qed.
(** Numbers over 32 bits awaited through a variable are cut to an int. *)
Theorem C72_variable_refuted decl addr round t z : In t [TU32; TI64; TU64; TUsize; TIsize] ->
  exists s, run decl addr round (round_trip t (VInt z) true) init = Ok s /\ outs s = [VInt (wrap 32 true (wrap 64 true z))].
Proof. intros H. repeat (destruct H as [<-|H]; [eexists; split; reflexivity|]). destruct H. Qed.
Example C72_variable_case decl addr round : exists s, run decl addr round (round_trip TI64 (VInt 5000000000) true) init = Ok s /\ outs s = [VInt 705032704].
Proof. eexists. split; reflexivity. Qed.
(** A struct whose name begins like a number type is not accepted by the C compiler. *)
Theorem C72_name_refuted decl addr round tag fs variable : decl (bs "interval") = KStruct tag ->
  run decl addr round (round_trip (TStruct (bs "interval")) (VStruct tag fs) variable) init = Panic.
Proof. reflexivity. Qed.
(** Failures of malloc and pthread_create are not noticed; awaiting twice is undefined. *)
Theorem C72_failure_refuted decl addr round r v vs c : run decl addr round [Call r (v :: vs) false c] init = UB /\
  run decl addr round [Call r [] true false; Await false 0] init = UB /\
  run decl addr round [Call point [] true true; Begin 0; Return 0 v false] init = UB.
Proof. repeat split; reflexivity. Qed.
Theorem C72_twice_refuted decl addr round v b : run decl addr round (round_trip TInt (VInt v) b ++ [Await b 0]) init = UB.
Proof. destruct b; reflexivity. Qed.

Print Assumptions C72_await_partial.
Print Assumptions C72_fields_partial.
Print Assumptions C72_params_refuted.
Print Assumptions C72_comma_refuted.
Print Assumptions C72_float_refuted.
Print Assumptions C72_pointer_refuted.
Print Assumptions C72_alias_refuted.
Print Assumptions C72_variable_refuted.
Print Assumptions C72_name_refuted.
Print Assumptions C72_failure_refuted.
Print Assumptions C72_twice_refuted.
