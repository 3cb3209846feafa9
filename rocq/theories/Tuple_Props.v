(** C91: tuples. *)
From Verif Require Import Common Tuple_Model Tuple_Spec Tuple_Proofs.
Open Scope nat_scope.

(** A tuple type of elements whose names keep apart from the separator, with at most 255 bytes
    together: the struct made for it has exactly these field types in order, and it is there
    once.  A literal and an enum payload of the same element types name the same struct. *)
Theorem C91_fields_partial : forall used ts,
  ts <> [] -> Forall plain ts -> length ts <= 16 -> length (join (bs "__") ts) <= 255 ->
  exists sig, sig_of_type ts = Ok sig /\ sig_of_literal ts = Ok sig /\ field_types sig = ts /\
    In sig (register used sig) /\ (NoDup used -> NoDup (register used sig)).
Proof.
  intros used ts N F L16 L. exists (join sep ts). change (bs "__") with sep in L.
  split; [unfold sig_of_type; rewrite sig_from_ok by (cbn [length]; lia); reflexivity|].
  split; [unfold sig_of_literal; destruct (Nat.ltb_spec 16 (length ts)); [lia|]; rewrite sig_from_ok by (cbn [length]; lia); reflexivity|].
  split; [apply pieces_join; auto|]. destruct (register_in used (join sep ts)) as (A & _ & B). auto.
Qed.
Print Assumptions C91_fields_partial.

(** The payload of an enum variant is never cut or written outside the array: the signature of
    the types given, or a message. *)
Theorem C91_variant : forall t ts, sig_of_variant t ts <> UB /\ forall sig, sig_of_variant t ts = Ok sig -> sig = join (bs "__") (t :: ts).
Proof.
  intros t ts. unfold sig_of_variant. destruct (Nat.ltb_spec 250 (length t)); [split; discriminate|].
  rewrite strcat_ok by (cbn [length]; lia). cbn [bind app]. destruct (sig_variant_ok ts t ltac:(lia)) as [U R]. split; auto.
  intros sig E. rewrite (R sig E). symmetry. exact (join_concat t ts).
Qed.
Print Assumptions C91_variant.

(** Different tuple types have different names. *)
Theorem C91_distinct_partial : forall ts us, ts <> [] -> us <> [] -> Forall plain ts -> Forall plain us ->
  tuple_name (join (bs "__") ts) = tuple_name (join (bs "__") us) -> ts = us.
Proof.
  intros ts us N1 N2 F1 F2 E. unfold tuple_name in E. apply app_inv_head in E. rewrite <- (pieces_join ts N1 F1), <- (pieces_join us N2 F2). now f_equal.
Qed.
Print Assumptions C91_distinct_partial.

(** False when the name of an element has the separator in it, as every tuple of two or more and
    every name with two underscores has: the struct has more fields than the tuple elements. *)
Theorem C91_separator_refuted : forall ts t, In t ts -> occurs (bs "__") t -> length ts < length (field_types (join (bs "__") ts)).
Proof. exact np_join_more. Qed.
Print Assumptions C91_separator_refuted.
Theorem C91_nested_refuted : forall a b us c, occurs (bs "__") (tuple_name (join (bs "__") (a :: b :: us))) /\
  length [tuple_name (join (bs "__") (a :: b :: us)); c] < length (field_types (join (bs "__") [tuple_name (join (bs "__") (a :: b :: us)); c])).
Proof.
  intros a b us c. assert (O : occurs sep (tuple_name (join sep (a :: b :: us)))).
  { exists (bs "Tuple_" ++ a), (join sep (b :: us)). unfold tuple_name. rewrite join_cons. now rewrite <- !app_assoc. }
  split; [exact O|]. eapply np_join_more; [left; reflexivity|exact O].
Qed.
Print Assumptions C91_nested_refuted.

(** False for pointers: the name of the struct has the star in it, which no C name can have. *)
Theorem C91_pointer_refuted : forall ts t, In t ts -> In 42%N t -> ~ Forall ident_char (tuple_name (join (bs "__") ts)).
Proof.
  intros ts t I S F. rewrite Forall_forall in F. assert (X : In 42%N (tuple_name (join (bs "__") ts))).
  { unfold tuple_name. apply in_or_app. right. clear F. induction ts as [|u ts IH]; [destruct I|]. destruct ts as [|w ts].
    - destruct I as [->|[]]. exact S.
    - rewrite join_cons. destruct I as [->|I]; [apply in_or_app; now left|]. apply in_or_app. right. apply in_or_app. right. auto. }
  apply F in X. unfold ident_char in X. lia.
Qed.
Print Assumptions C91_pointer_refuted.

(** False for long types: more than 255 bytes are written into the array of 256. *)
Theorem C91_long_refuted : forall ts, 255 < length (join (bs "__") ts) -> sig_of_type ts = UB.
Proof. intros ts L. unfold sig_of_type. apply sig_from_ub; cbn [length]; [lia|]. change (bs "__") with sep in L. lia. Qed.
Print Assumptions C91_long_refuted.
(** ... and for literals of more than sixteen elements. *)
Theorem C91_seventeen_refuted : forall ts, 16 < length ts -> sig_of_literal ts = UB.
Proof. intros ts L. unfold sig_of_literal. destruct (Nat.ltb_spec 16 (length ts)); [reflexivity|lia]. Qed.
Print Assumptions C91_seventeen_refuted.

(** The C output: tuples (and slices) of types the preamble declares come in an order C accepts. *)
Theorem C91_order_partial : forall declared slices tuples structs,
  Forall (fun t => In t declared) slices -> Forall (fun s => Forall (fun t => In t declared) (field_types s)) tuples ->
  in_order declared (emission slices tuples structs).
Proof. intros declared slices tuples structs. apply order_ok. Qed.
Print Assumptions C91_order_partial.
(** False for a tuple of a struct of the program: it comes before the struct. *)
Theorem C91_order_refuted : forall declared slices tuples structs sig p, In sig tuples -> In p (field_types sig) -> ~ In p declared ->
  (forall t, p <> bs "Slice_" ++ t) -> (forall t, p <> bs "Tuple_" ++ t) -> ~ in_order declared (emission slices tuples structs).
Proof.
  intros declared slices tuples structs sig p I P D S T. unfold emission. apply (order_refuted _ declared sig p); auto.
  - apply in_or_app. right. apply in_or_app. left. apply in_map_iff. eauto.
  - intros n l1 l2 E X.
    assert (Q : forall A l1 l2, map ISlice (rev slices) ++ A = l1 ++ ITypedef n :: l2 -> exists l1', A = l1' ++ ITypedef n :: l2).
    { clear. induction (rev slices) as [|x l IH]; intros A k1 k2 H; [eauto|]. destruct k1 as [|y k1]; [discriminate|]. injection H as _ H. eauto. }
    apply Q in E as [k1 E].
    assert (Q2 : forall A l1, map ITuple tuples ++ A = l1 ++ ITypedef n :: l2 -> exists l1', A = l1' ++ ITypedef n :: l2).
    { clear. induction tuples as [|x l IH]; intros A k1 H; [eauto|]. destruct k1 as [|y k1]; [discriminate|]. injection H as _ H. eauto. }
    apply Q2 in E as [k2 E].
    assert (Y : In (ITuple sig) (map ITypedef structs)) by (rewrite E; apply in_or_app; right; now right).
    apply in_map_iff in Y as (? & Z & _). discriminate.
Qed.
Print Assumptions C91_order_refuted.

(** A literal of numbers, strings and variables, each at most 255 bytes of C and 4000 together,
    is the C literal of the same values in the same order. *)
Theorem C91_literal_partial : forall name es ts, map simple es = map Some ts -> Forall (fun t => length t <= 255) ts ->
  length name + length (join (bs ", ") ts) + 6 <= 4096 ->
  literal name es = Ok (bs "(" ++ name ++ bs "){" ++ join (bs ", ") ts ++ bs "}").
Proof.
  intros name es ts M F L. unfold literal. rewrite firstn_all2 by (rewrite !app_length; change (length (bs "(")) with 1; change (length (bs "){")) with 2; lia).
  rewrite (literal_rest_ok es ts _ true M F) by (rewrite !app_length; change (length (bs "(")) with 1; change (length (bs "){")) with 2; lia).
  now rewrite <- !app_assoc.
Qed.
Print Assumptions C91_literal_partial.
(** False for any other expression and for character literals: whatever it is, the C text is the
    same, with the value 0. *)
Theorem C91_literal_refuted : forall name es x y fs,
  literal name (es ++ EOther x :: fs) = literal name (es ++ EOther y :: fs) /\ literal name (es ++ EChar x :: fs) = literal name (es ++ EInt (bs "0") :: fs).
Proof.
  intros name es x y fs.
  assert (H : forall c b, literal_rest c b (es ++ EOther x :: fs) = literal_rest c b (es ++ EOther y :: fs) /\ literal_rest c b (es ++ EChar x :: fs) = literal_rest c b (es ++ EInt (bs "0") :: fs)).
  { induction es as [|e es IH]; intros c b; [split; reflexivity|]. cbn [app literal_rest].
    destruct (if b then Ok c else strcat 4096 c (bs ", ")) as [c'| | |]; cbn [bind]; auto.
    destruct (elem_code e) as [t| | |]; cbn [bind]; auto. destruct (strcat 4096 c' t) as [c2| | |]; cbn [bind]; auto. }
  apply H.
Qed.
Print Assumptions C91_literal_refuted.
(** ... and a string of 254 bytes or more is written outside an array of 256. *)
Theorem C91_long_string_refuted : forall name s fs, 254 <= length s -> literal name (EStr s :: fs) = UB.
Proof.
  intros name s fs L. unfold literal. cbn [literal_rest bind elem_code]. unfold sprintf256, quoted. cbn [length]. rewrite app_length. cbn [length].
  destruct (Nat.leb_spec (S (length s + 1) + 1) 256); [lia|reflexivity].
Qed.
Print Assumptions C91_long_string_refuted.

(** A literal where a tuple type is declared: the text of each element as written, up to 123
    bytes each, in order. *)
Theorem C91_typed_partial : forall name comma rp es after fuel,
  es <> [] -> Forall (closed 0) es -> Forall (fun e => text e <> []) es -> Forall (fun e => length (text e) <= 123) es -> 2 * length es + 1 <= fuel ->
  typed_literal fuel name (written comma rp es ++ after) = Ok (bs "(" ++ name ++ bs "){" ++ join (bs ", ") (map text es) ++ bs "}", after).
Proof.
  intros name comma rp es after fuel N C T L F. unfold typed_literal. rewrite (typed_ok comma rp after es [] 128 fuel C); auto; [|eapply Forall_impl; [|exact T]; intros a X ->; now apply X|cbn; lia].
  cbn [bind]. destruct es as [|e es]; [congruence|]. cbn [map adds add]. inversion T; subst. now rewrite adds_join.
Qed.
Print Assumptions C91_typed_partial.
(** False for longer elements: the array is enlarged once only, and a first element of 256 bytes
    or more is written outside it. *)
Theorem C91_typed_long_refuted : forall name e k b rest fuel, closed 0 e -> (k = KComma \/ k = KRp) -> 256 <= length (text e) ->
  typed_literal (S fuel) name (e ++ Tok k b :: rest) = UB.
Proof.
  intros name e k b rest fuel C K L. unfold typed_literal. assert (N : e <> []) by (intros ->; cbn in L; lia).
  rewrite typed_step by auto. unfold put. cbn [length bind]. destruct (Nat.ltb_spec 128 (0 + length (text e) + 5)); [|lia].
  rewrite strcat_ub by (cbn [length]; lia). reflexivity.
Qed.
Print Assumptions C91_typed_long_refuted.
(** False for a literal the file ends in: the compiler does not finish, whatever the number of
    steps. *)
Theorem C91_eof_refuted : forall name e fuel, closed 0 e -> e <> [] -> length (text e) <= 123 -> typed_literal fuel name e = Fuel.
Proof. intros name e fuel C N L. unfold typed_literal. rewrite typed_eof2; auto; cbn; lia. Qed.
Print Assumptions C91_eof_refuted.

(** Destructuring gives the variables the elements of the same position. *)
Theorem C91_destructure : forall V (env : list (bytes * V)) names vs env', destructure env names vs = Some env' ->
  length names <= length vs /\ forall i n v, nth_error names i = Some n -> nth_error vs i = Some v -> In (n, v) env' /\ (NoDup names -> forall w, In (n, w) (firstn (length names) env') -> w = v).
Proof.
  intros V env names vs env' E.
  assert (L : length names <= length vs).
  { revert env vs E. induction names as [|n ns IH]; intros env vs E; cbn; [lia|]. destruct vs as [|v vs]; [discriminate|]. cbn in *. apply IH in E. lia. }
  split; auto. rewrite destructure_ok in E by auto. injection E as <-. intros i n v Hn Hv.
  assert (I : In (n, v) (combine names vs)).
  { revert i names vs L Hn Hv. induction i as [|i IH]; intros [|a names] [|b vs] L Hn Hv; try discriminate; cbn in *; [left; congruence|right; apply IH; auto; lia]. }
  split; [apply in_or_app; left; now rewrite <- in_rev|]. intros ND w W.
  assert (Lc : length (rev (combine names vs)) = length names) by (rewrite rev_length, combine_length; lia).
  rewrite firstn_app, Lc, Nat.sub_diag, firstn_O, app_nil_r, firstn_all2 in W by lia. rewrite <- in_rev in W.
  clear -ND I W. revert vs I W. induction names as [|a names IH]; intros [|b vs] I W; cbn in *; try contradiction. inversion ND as [|? ? NI ND']; subst.
  destruct I as [I|I], W as [W|W]; try congruence; try (injection I as -> ->); try (injection W as -> ->).
  - exfalso. apply NI. eapply in_combine_l; eauto.
  - exfalso. apply NI. eapply in_combine_l; eauto.
  - eauto.
Qed.
Print Assumptions C91_destructure.

(** The hypotheses are met. *)
Example C91_case :
  Forall plain [bs "int"; bs "Map_int"; bs "string"] /\ sig_of_type [bs "int"; bs "Map_int"; bs "string"] = Ok (bs "int__Map_int__string") /\
  field_types (bs "int__Map_int__string") = [bs "int"; bs "Map_int"; bs "string"] /\
  field_types (bs "Tuple_int__int__float") = [bs "Tuple_int"; bs "int"; bs "float"] /\
  literal (bs "Tuple_int__string") [EInt (bs "1"); EStr (bs "World")] = Ok (bs "(Tuple_int__string){1, ""World""}") /\
  literal (bs "Tuple_int__int") [EInt (bs "1"); EOther (bs "f(2)")] = Ok (bs "(Tuple_int__int){1, /* complex expr */0}") /\
  closed 0 [Tok KOther (bs "f"); Tok KLp (bs "("); Tok KOther (bs "a"); Tok KComma (bs ","); Tok KOther (bs " b"); Tok KRp (bs ")")] /\
  typed_literal 9 (bs "T") (written (bs ",") (bs ")") [[Tok KOther (bs "f"); Tok KLp (bs "("); Tok KOther (bs "a"); Tok KComma (bs ","); Tok KOther (bs " b"); Tok KRp (bs ")")]; [Tok KOther (bs " 2")]])
    = Ok (bs "(T){f(a, b),  2}", []) /\
  destructure [] [bs "a"; bs "b"] [10; 20] = Some [(bs "b", 20); (bs "a", 10)].
Proof.
  assert (D : forall t, pieces (t ++ bs "_") = [t ++ bs "_"] -> plain t).
  { intros t E O. apply (np_occurs _) in O. rewrite E in O. cbn [length] in O. lia. }
  split; [repeat apply Forall_cons; try apply Forall_nil; apply D; reflexivity|].
  repeat (split; [vm_compute; reflexivity|]). vm_compute. reflexivity.
Qed.
