(** C108: slice expressions. *)
From Verif Require Import Common Slice_Model Slice_Spec Slice_Proofs Ctype_Model Cut_Model Cut_Spec Cut_Proofs.
Local Open Scope Z_scope.

(** A chain of slice expressions of any depth on a slice or a pointer, in range, shows exactly the elements its bounds select, with that length; missing bounds are the ends.  Missing: bounds that use the names _arr, _start, _len, lengths from 2^31 on. *)
Theorem C108_cut_partial : forall T (m : mem T) g x v vs isptr a ws,
  lookup x g = Some v -> shows T m v vs -> Z.of_nat (length vs) < 2 ^ 31 ->
  (isptr = false -> forall p, v <> VPtr p) -> chain T g x vs isptr a ws ->
  exists w, run T m g a = Ok w /\ shows T m w ws.
Proof.
  intros T m g x v vs ip a ws H1 H2 H3 H4 H5. destruct (run_ok T m a g x v vs ip ws H1 H2 H3 H4 H5) as (w & R & S & _). eauto.
Qed.
Print Assumptions C108_cut_partial.

Definition xmem : mem Z := [Live Z [1]; Live Z [10; 11; 12; 13; 14; 15]].
Definition xenv : env := [(bs "i", VInt 2); (bs "p", VPtr (Some (1%nat, 0))); (bs "s", VSlice (Some (1%nat, 1)) 4)].
Definition xsrc := SCut (SCut (SVar (bs "s")) (Some (Num 1)) None) None (Some (Var (bs "i"))).
Example C108_cut_used : chain Z xenv (bs "s") [11; 12; 13; 14] false xsrc [12; 13]
  /\ run Z xmem xenv xsrc = Ok (VSlice (Some (1%nat, 2)) 2).
Proof.
  split; [|vm_compute; reflexivity].
  change [12; 13] with (part Z 0 2 (part Z 1 4 [11; 12; 13; 14])).
  apply (chain_cut Z xenv (bs "s") [11; 12; 13; 14] false _ _ _ _ 0 2).
  - apply (chain_cut Z xenv (bs "s") [11; 12; 13; 14] false _ _ _ _ 1 4).
    + constructor. intros X; discriminate X.
    + split; [exact I|reflexivity].
    + reflexivity.
    + discriminate.
    + lia.
    + cbn; lia.
  - reflexivity.
  - split; [|reflexivity]. cbn [plain]. splits; intros X; discriminate X.
  - discriminate.
  - lia.
  - vm_compute. discriminate.
Qed.

(** An index of a slice held in a variable finds that element, or the program stops, for every index; what is written through a slice is written in the memory it covers, and nowhere else. *)
Theorem C108_element : forall T (m : mem T) p n vs i, shows T m (VSlice p n) vs ->
  index T m (VSlice p n) i = (if (0 <=? i) && (i <? n) then match nth_error vs (Z.to_nat i) with Some x => Ok x | None => UB end else Panic)
  /\ (0 <= i < n -> exists x, nth_error vs (Z.to_nat i) = Some x)
  /\ forall x, 0 <= i < n -> exists m', assign T m (VSlice p n) i x = Ok m' /\ shows T m' (VSlice p n) (upd vs (Z.to_nat i) x)
       /\ forall q, q <> shift p i -> load T m' q = load T m q.
Proof.
  intros T m p n vs i (A & ->). assert (K : 0 <= i < Z.of_nat (length vs) -> exists x, nth_error vs (Z.to_nat i) = Some x).
  { intros H. destruct (nth_error vs (Z.to_nat i)) eqn:E; eauto. apply nth_error_None in E. lia. }
  splits; auto.
  - unfold index. destruct (Z.ltb_spec i 0); destruct (Z.leb_spec 0 i); try lia; cbn [orb andb]; [reflexivity|].
    destruct (Z.leb_spec (Z.of_nat (length vs)) i); destruct (Z.ltb_spec i (Z.of_nat (length vs))); try lia; [reflexivity|].
    destruct (K ltac:(lia)) as (x & E). rewrite E. rewrite <- (Z2Nat.id i) at 1 by lia. eapply at_load; eauto.
  - intros x H. destruct (at_store T m p vs (Z.to_nat i) x A ltac:(lia)) as (m' & E & A'). rewrite Z2Nat.id in E by lia.
    exists m'. unfold assign. destruct (Z.ltb_spec i 0); [lia|]. destruct (Z.leb_spec (Z.of_nat (length vs)) i); [lia|]. cbn [orb].
    splits; auto.
    + cbn [shows]. rewrite length_upd. auto.
    + intros q Q. now apply (load_store T m _ x m' E).
Qed.
Print Assumptions C108_element.
Example C108_element_used : shows Z xmem (VSlice (Some (1%nat, 2)) 2) [12; 13] /\ index Z xmem (VSlice (Some (1%nat, 2)) 2) 1 = Ok 13
  /\ index Z xmem (VSlice (Some (1%nat, 2)) 2) 2 = Panic /\ index Z xmem (VSlice (Some (1%nat, 2)) 2) (-1) = Panic.
Proof. splits; try reflexivity. split; [|reflexivity]. exists 1%nat, [10; 11], [14; 15]. now split. Qed.

(** If the bounds are the wrong way round the slice has a negative length, and every index of it stops the program. *)
Theorem C108_reversed_partial : forall T (m : mem T) g x v vs so eo s e i,
  lookup x g = Some v -> shows T m v vs -> Z.of_nat (length vs) < 2 ^ 31 -> x <> bs "_arr" ->
  bound g (Some so) 0 s -> bound g (Some eo) 0 e -> 0 <= e < s -> s <= Z.of_nat (length vs) ->
  exists q, run T m g (SCut (SVar x) (Some so) (Some eo)) = Ok (VSlice q (e - s)) /\ index T m (VSlice q (e - s)) i = Panic.
Proof.
  intros T m g x v vs so eo s e i Lk Sh L Xn (Ps & Es) (Pe & Ee) H1 H2. rewrite pow31 in L.
  assert (A : exists p, at_ T m p vs /\ ((v = VPtr p) \/ v = VSlice p (Z.of_nat (length vs)))).
  { destruct v; cbn [shows] in Sh; try contradiction; [exists p; auto|]. destruct Sh as (A & ->). exists p; auto. }
  destruct A as (p & A & D). exists (shift p s).
  assert (R : run T m ((n_arr, VUninit) :: g) (SVar x) = Ok v).
  { cbn [run lookup]. destruct (beq_bytes x n_arr) eqn:E. { apply beq_bytes_true in E. contradiction. } rewrite Lk. destruct D as [-> | ->]; reflexivity. }
  assert (X : run T m g (SCut (SVar x) (Some so) (Some eo)) = block T m g v (Some so) (Some eo)).
  { change (run T m g (SCut (SVar x) (Some so) (Some eo))) with (do w <- run T m ((n_arr, VUninit) :: g) (SVar x); block T m g w (Some so) (Some eo)). now rewrite R. }
  rewrite X. unfold block.
  rewrite !eval_skip by auto. rewrite Es. cbn [bind]. rewrite (to_int_id s) by (rewrite pow31; lia). rewrite !eval_skip by auto. rewrite Ee. cbn [bind].
  rewrite long_ok by (rewrite pow63; lia). cbn [bind]. rewrite (to_int_neg (e - s)) by (rewrite pow31; lia). split.
  - destruct D as [-> | ->]; rewrite (ptr_add_ok T m p vs s A) by lia; reflexivity.
  - cbn [index]. destruct (Z.ltb_spec i 0); [reflexivity|]. destruct (Z.leb_spec (e - s) i); [reflexivity|lia].
Qed.
Print Assumptions C108_reversed_partial.
Example C108_reversed_used : run Z xmem xenv (SCut (SVar (bs "s")) (Some (Num 3)) (Some (Num 1))) = Ok (VSlice (Some (1%nat, 4)) (-2)).
Proof. vm_compute. reflexivity. Qed.

(** False: the bounds are not checked against the sliced value.  A slice that ends past the block it is taken from is made, and its index check lets the program read outside. *)
Theorem C108_range_refuted : forall T (m : mem T) g x b l e, lookup x g = Some (VSlice (Some (b, 0)) (Z.of_nat (length l))) ->
  x <> bs "_arr" -> nth_error m b = Some (Live T l) -> Z.of_nat (length l) < e -> e < 2 ^ 31 ->
  exists w, run T m g (SCut (SVar x) None (Some (Num e))) = Ok w /\ index T m w (Z.of_nat (length l)) = UB.
Proof.
  intros T m g x b l e Lk Xn E H L. exists (VSlice (Some (b, 0)) e).
  assert (R : run T m ((n_arr, VUninit) :: g) (SVar x) = Ok (VSlice (Some (b, 0)) (Z.of_nat (length l)))).
  { cbn [run lookup]. destruct (beq_bytes x n_arr) eqn:Q. { apply beq_bytes_true in Q. contradiction. } now rewrite Lk. }
  split.
  - change (run T m g (SCut (SVar x) None (Some (Num e)))) with (do w <- run T m ((n_arr, VUninit) :: g) (SVar x); block T m g w None (Some (Num e))).
    rewrite R. cbn [bind]. unfold block. cbn [bind eval]. rewrite (to_int_id 0) by (rewrite pow31; lia). rewrite pow31 in L.
    rewrite long_ok by (rewrite pow63; lia). cbn [bind]. rewrite (to_int_id (e - 0)) by (rewrite pow31; lia). unfold ptr_add. rewrite E.
    destruct (Z.leb_spec 0 (0 + 0)); [|lia]. destruct (Z.leb_spec (0 + 0) (Z.of_nat (length l))); [|lia]. cbn [andb bind shift]. now rewrite Z.sub_0_r.
  - cbn [index]. destruct (Z.ltb_spec (Z.of_nat (length l)) 0); [lia|]. destruct (Z.leb_spec e (Z.of_nat (length l))); [lia|]. cbn [orb shift]. unfold load. rewrite E.
    destruct (Z.leb_spec (Z.of_nat (length l)) (0 + Z.of_nat (length l))); [|lia]. now rewrite orb_true_r.
Qed.
Print Assumptions C108_range_refuted.
Example C108_range_used : lookup (bs "s") [(bs "s", VSlice (Some (1%nat, 0)) 6)] = Some (VSlice (Some (1%nat, 0)) (Z.of_nat (length [10; 11; 12; 13; 14; 15])))
  /\ nth_error xmem 1 = Some (Live Z [10; 11; 12; 13; 14; 15]).
Proof. split; reflexivity. Qed.

(** False: a pointer sliced without an end gives an empty slice, whatever it points at. *)
Theorem C108_open_refuted : forall T (m : mem T) g x p vs s, lookup x g = Some (VPtr p) -> x <> bs "_arr" -> at_ T m p vs ->
  0 <= s <= Z.of_nat (length vs) -> s < 2 ^ 31 -> exists q, run T m g (SCut (SVar x) (Some (Num s)) None) = Ok (VSlice q 0).
Proof.
  intros T m g x p vs s Lk Xn A H L. exists (shift p s).
  assert (R : run T m ((n_arr, VUninit) :: g) (SVar x) = Ok (VPtr p)).
  { cbn [run lookup]. destruct (beq_bytes x n_arr) eqn:Q. { apply beq_bytes_true in Q. contradiction. } now rewrite Lk. }
  change (run T m g (SCut (SVar x) (Some (Num s)) None)) with (do w <- run T m ((n_arr, VUninit) :: g) (SVar x); block T m g w (Some (Num s)) None).
  rewrite R. cbn [bind]. unfold block. cbn [eval bind]. rewrite (to_int_id s) by lia. rewrite (ptr_add_ok T m p vs s A) by lia. reflexivity.
Qed.
Print Assumptions C108_open_refuted.
Example C108_open_used : run Z xmem xenv (SCut (SVar (bs "p")) (Some (Num 1)) None) = Ok (VSlice (Some (1%nat, 1)) 0).
Proof. vm_compute. reflexivity. Qed.

(** False: a bound that uses a variable of the program called _start or _len reads a variable without a value, or another value than its own. *)
Theorem C108_capture_refuted : forall T (m : mem T) g v z e so,
  block T m ((bs "_start", VInt z) :: g) v (Some (Var (bs "_start"))) e = UB
  /\ (forall i, eval ((n_start, VUninit) :: (n_arr, v) :: g) so = Ok i -> block T m g v (Some so) (Some (Var (bs "_len"))) = UB)
  /\ forall p n vs s, v = VSlice p n -> at_ T m p vs -> 0 <= s <= Z.of_nat (length vs) -> s < 2 ^ 31 ->
     block T m ((bs "_start", VInt z) :: g) v (Some (Num s)) (Some (Var (bs "_start"))) = Ok (VSlice (shift p s) 0).
Proof.
  intros T m g v z e so. splits.
  - unfold block. cbn [eval lookup]. change (beq_bytes (bs "_start") n_start) with true. reflexivity.
  - intros i E. unfold block. rewrite E. cbn [bind eval lookup]. change (beq_bytes (bs "_len") n_len) with true. reflexivity.
  - intros p n vs s -> A H L. unfold block. cbn [eval bind lookup]. change (beq_bytes (bs "_start") n_len) with false. change (beq_bytes (bs "_start") n_start) with true. cbn [bind].
    rewrite (to_int_id s) by lia. rewrite Z.sub_diag. change (long 0) with (Ok (A := Z) 0). cbn [bind]. rewrite (to_int_id 0) by (rewrite pow31; lia).
    rewrite (ptr_add_ok T m p vs s A) by lia. reflexivity.
Qed.
Print Assumptions C108_capture_refuted.
Example C108_capture_used : block Z xmem ((bs "_start", VInt 1) :: xenv) (VSlice (Some (1%nat, 1)) 4) (Some (Var (bs "_start"))) None = UB.
Proof. vm_compute. reflexivity. Qed.

(** False: the bounds are reduced to 32 bits, so 2^32 more than a start selects the same elements. *)
Theorem C108_wide_refuted : forall T (m : mem T) g v s e, block T m g v (Some (Num (s + 2 ^ 32))) e = block T m g v (Some (Num s)) e.
Proof.
  intros. unfold block. cbn [eval bind]. replace (to_int (s + 2 ^ 32)) with (to_int s); [reflexivity|].
  unfold to_int. replace (s + 2 ^ 32 + 2 ^ 31) with (s + 2 ^ 31 + 1 * 2 ^ 32) by lia. now rewrite Z.mod_add by discriminate.
Qed.
Print Assumptions C108_wide_refuted.
Example C108_wide_used : block Z xmem xenv (VSlice (Some (1%nat, 1)) 4) (Some (Num (1 + 2 ^ 32))) None = Ok (VSlice (Some (1%nat, 2)) 3).
Proof. vm_compute. reflexivity. Qed.

(** The C compiler accepts a slice expression on a pointer or slice of an element type whose C name is the name it has in Zen and is one word.  Missing: int, the c_ types, types of several words, fixed arrays. *)
Theorem C108_type_partial : forall regs b k, (forall n, k <> KArray n) ->
  In b [BBool; BString; BChar; BI8; BU8; BI16; BU16; BI32; BU32; BI64; BU64; BF32; BF64; BUsize; BIsize; BByte; BI128; BRune; BFloat] ->
  compiles regs b k = true.
Proof.
  intros regs b k K H. cbn [In] in H.
  assert (X : zen_name b = base_name b /\ existsb (N.eqb (ch "[")) (base_name b) = false /\ existsb (N.eqb 32) (base_name b) = false).
  { repeat (destruct H as [<- | H]; [vm_compute; auto|]). contradiction. }
  destruct X as (Z1 & B & S). unfold compiles, arr_type. rewrite Z1. rewrite S. cbn [existsb negb andb]. rewrite beq_bytes_refl. cbn [orb]. rewrite andb_true_r.
  destruct k; [destruct (K n eq_refl)| |]; rewrite existsb_app, B; reflexivity.
Qed.
Print Assumptions C108_type_partial.
Example C108_type_used : compiles [] BU8 KSlice = true /\ compiles [] BF64 KPointer = true. Proof. split; vm_compute; reflexivity. Qed.

(** False: no fixed array can be sliced. *)
Theorem C108_array_refuted : forall regs b n, compiles regs b (KArray n) = false.
Proof.
  intros. unfold compiles. cbn [arr_type]. rewrite existsb_app. change (bs "[" ++ dec n ++ bs "]") with (91%N :: dec n ++ bs "]"). cbn [existsb].
  change ((ch "[" =? 91)%N) with true. cbn [orb]. rewrite orb_true_r. reflexivity.
Qed.
Print Assumptions C108_array_refuted.
Example C108_array_used : arr_type BI32 (KArray 5) = bs "int32_t[5]". Proof. vm_compute. reflexivity. Qed.

(** False: slices of int, and of the C types whose name in C is one word, are made under a name that is declared only if the program uses slices of another type of that C name. *)
Theorem C108_name_refuted : forall regs b k, In b [BInt; BCInt; BCLong; BCShort; BCChar] -> ~ In (base_name b) regs -> compiles regs b k = false.
Proof.
  intros regs b k H N. unfold compiles. cbn [existsb].
  assert (X : beq_bytes (base_name b) (zen_name b) = false). { cbn [In] in H. repeat (destruct H as [<- | H]; [vm_compute; reflexivity|]). contradiction. }
  rewrite X. cbn [orb].
  assert (Y : existsb (beq_bytes (base_name b)) regs = false).
  { destruct (existsb (beq_bytes (base_name b)) regs) eqn:E; [|reflexivity]. apply existsb_exists in E. destruct E as (y & I1 & E). apply beq_bytes_true in E. subst y. contradiction. }
  rewrite Y. apply andb_false_r.
Qed.
Print Assumptions C108_name_refuted.
Example C108_name_used : compiles [] BInt KSlice = false /\ compiles [bs "int32_t"] BInt KSlice = true. Proof. split; vm_compute; reflexivity. Qed.

(** A fixed array given for a slice parameter is seen whole, in place. *)
Theorem C108_pass : forall T (m : mem T) p vs, at_ T m p vs -> shows T m (coerce p (Z.of_nat (length vs))) vs.
Proof. intros. now split. Qed.
Print Assumptions C108_pass.
Example C108_pass_used : at_ Z xmem (Some (1%nat, 0)) [10; 11; 12; 13; 14; 15].
Proof. exists 1%nat, [], []. split; reflexivity. Qed.

(** return [e1, ..., en] evaluates the elements in order, each once, and gives a slice of their values in memory of its own: nothing that was there changes.  Missing: malloc may fail, which is not checked. *)
Theorem C108_return_partial : forall T St (m : mem T) (l : list (St -> T * St)) s,
  exists w vs s', return_literal T St m l s true = Ok (m ++ [Live T vs], w, s') /\ shows T (m ++ [Live T vs]) w vs
  /\ length vs = length l /\ (forall q x, load T m q = Ok x -> load T (m ++ [Live T vs]) q = Ok x)
  /\ (forall k e r, l = k ++ e :: r -> nth_error vs (length k) = Some (fst (e (snd (elements T St k s))))).
Proof.
  intros T St m l s. assert (Ln : forall l s, length (fst (elements T St l s)) = length l).
  { clear. induction l as [|e l IH]; intros s; cbn [elements]; [reflexivity|]. destruct (e s) as [v s1] eqn:E. specialize (IH s1). destruct (elements T St l s1). cbn [fst length] in *. lia. }
  assert (At : forall k e r s, nth_error (fst (elements T St (k ++ e :: r) s)) (length k) = Some (fst (e (snd (elements T St k s))))).
  { clear. induction k as [|x k IH]; intros e r s; cbn [elements app length].
    - destruct (e s) as [v s1] eqn:E. destruct (elements T St r s1). cbn [fst snd nth_error]. rewrite E. reflexivity.
    - destruct (x s) as [v s1] eqn:E. specialize (IH e r s1). destruct (elements T St (k ++ e :: r) s1). destruct (elements T St k s1). cbn [fst snd nth_error] in *. exact IH. }
  specialize (Ln l s). unfold return_literal. destruct (elements T St l s) as [vs s'] eqn:E. cbn [fst] in Ln.
  exists (VSlice (Some (length m, 0)) (Z.of_nat (length l))), vs, s'. splits; auto.
  - cbn [shows]. split; [|lia]. exists (length m), [], []. split; [reflexivity|]. rewrite nth_error_app2 by lia. rewrite Nat.sub_diag. now rewrite app_nil_r.
  - intros [[b i]|] x H; unfold load in *; [|discriminate]. destruct (nth_error m b) eqn:Q; [|discriminate].
    rewrite nth_error_app1 by (apply nth_error_Some; congruence). now rewrite Q.
  - intros k e r ->. specialize (At k e r s). now rewrite E in At.
Qed.
Print Assumptions C108_return_partial.
Example C108_return_used : return_literal Z Z xmem [fun s => (s, s + 1); fun s => (s * 10, s + 1)] 4 true
  = Ok (xmem ++ [Live Z [4; 50]], VSlice (Some (2%nat, 0)) 2, 6).
Proof. reflexivity. Qed.

(** A return runs every open defer once, the last one first, after its value is computed.  Missing: array literals in functions that return a slice. *)
Theorem C108_defer_partial : forall slice_fn lit value ds, slice_fn && lit = false ->
  return_ slice_fn lit value ds = (if value then [Value] else []) ++ map Run (rev ds) ++ [Leave].
Proof.
  intros f l v ds H. unfold return_. replace (v && l && f) with false; [reflexivity|]. destruct v, l, f; try reflexivity; discriminate.
Qed.
Print Assumptions C108_defer_partial.
Example C108_defer_used : return_ false true true [1; 2]%nat = [Value; Run 2; Run 1; Leave]. Proof. reflexivity. Qed.

(** False: a function that returns an array literal as a slice runs none of its defers. *)
Theorem C108_defer_refuted : forall ds d, ~ In (Run d) (return_ true true true ds).
Proof. intros ds d. cbn. intuition discriminate. Qed.
Print Assumptions C108_defer_refuted.
Example C108_defer_refuted_used : return_ true true true [1; 2]%nat = [Value; Leave]. Proof. reflexivity. Qed.

(** A bound is computed as it is written, with numbers of 64 bits; a result that does not fit is undefined. *)
Inductive value (g : env) : exp -> Z -> Prop :=
  | v_num z : value g (Num z) z
  | v_var x z : lookup x g = Some (VInt z) -> value g (Var x) z
  | v_add a b x y : value g a x -> value g b y -> - 2 ^ 63 <= x + y < 2 ^ 63 -> value g (Add a b) (x + y)
  | v_sub a b x y : value g a x -> value g b y -> - 2 ^ 63 <= x - y < 2 ^ 63 -> value g (Sub a b) (x - y).
Lemma long_iff z w : long z = Ok w <-> w = z /\ - 2 ^ 63 <= z < 2 ^ 63.
Proof.
  unfold long. destruct ((- 2 ^ 63 <=? z) && (z <? 2 ^ 63)) eqn:B.
  - apply andb_prop in B as (B1 & B2). apply Z.leb_le in B1. apply Z.ltb_lt in B2. split; intros E; [injection E as <-; auto|destruct E as (-> & _); reflexivity].
  - split; intros E; [discriminate|]. destruct E as (_ & E1 & E2). apply Z.leb_le in E1. apply Z.ltb_lt in E2. rewrite E1, E2 in B. discriminate.
Qed.
Theorem C108_bounds : forall g e z, (eval g e = Ok z <-> value g e z)
  /\ forall f x y, value g e x -> value g f y -> (~ - 2 ^ 63 <= x + y < 2 ^ 63 -> eval g (Add e f) = UB) /\ (~ - 2 ^ 63 <= x - y < 2 ^ 63 -> eval g (Sub e f) = UB).
Proof.
  intros g.
  assert (A : forall e z, eval g e = Ok z <-> value g e z).
  { induction e as [w|x|a IHa b IHb|a IHa b IHb]; intros z; cbn [eval].
    - split; intros H. + injection H as <-. constructor. + inversion H. reflexivity.
    - split; intros H. + constructor. destruct (lookup x g) as [[]|]; try discriminate. congruence. + inversion H; subst. now rewrite H1.
    - split; intros H. + apply bind_Ok in H as (x & X & H). apply bind_Ok in H as (y & Y & H). apply long_iff in H as (-> & H). constructor; [now apply IHa|now apply IHb|exact H].
      + inversion H as [| |? ? x y X Y F|]; subst. apply IHa in X. apply IHb in Y. rewrite X, Y. cbn [bind]. apply long_iff. auto.
    - split; intros H. + apply bind_Ok in H as (x & X & H). apply bind_Ok in H as (y & Y & H). apply long_iff in H as (-> & H). constructor; [now apply IHa|now apply IHb|exact H].
      + inversion H as [| | |? ? x y X Y F]; subst. apply IHa in X. apply IHb in Y. rewrite X, Y. cbn [bind]. apply long_iff. auto. }
  intros e z. split; [apply A|]. intros f x y X Y. apply A in X, Y. cbn [eval]. rewrite X, Y. cbn [bind].
  assert (B : forall z, ~ - 2 ^ 63 <= z < 2 ^ 63 -> long z = UB).
  { intros w W. destruct (long w) eqn:E; auto; exfalso. - apply long_iff in E. tauto. - unfold long in E. destruct ((_ <=? w) && _); discriminate. - unfold long in E. destruct ((_ <=? w) && _); discriminate. }
  split; auto.
Qed.
Print Assumptions C108_bounds.
Example C108_bounds_used : value xenv (Sub (Var (bs "i")) (Num 5)) (-3). Proof. apply (v_sub xenv (Var (bs "i")) (Num 5) 2 5); [now constructor|constructor|rewrite pow63; lia]. Qed.

(** False of a start outside the block: moving the pointer there is undefined, in front of the block as behind it. *)
Theorem C108_start_refuted : forall T (m : mem T) g b i n l s e, nth_error m b = Some (Live T l) -> - 2 ^ 31 <= s < 2 ^ 31 ->
  i + s < 0 \/ Z.of_nat (length l) < i + s -> exists r, block T m g (VSlice (Some (b, i)) n) (Some (Num s)) e = r /\ (r = UB \/ r = Panic) /\ (e = None -> r = UB).
Proof.
  intros T m g b i n l s e M S O. eexists. split; [reflexivity|]. unfold block. cbn [eval bind]. rewrite to_int_neg by exact S.
  assert (P : ptr_add T m (Some (b, i)) s = UB). { cbn [ptr_add]. rewrite M. destruct (Z.leb_spec 0 (i + s)), (Z.leb_spec (i + s) (Z.of_nat (length l))); cbn [andb]; try reflexivity; lia. }
  rewrite P. cbn [bind]. destruct e as [e|]; cbn [bind]; [|auto]. split; [|discriminate].
  assert (B : forall g e, (exists z, eval g e = Ok z) \/ eval g e = UB \/ eval g e = Panic).
  { clear. assert (L : forall z, long z = Ok z \/ long z = UB) by (intros z; unfold long; destruct ((_ <=? z) && _); auto).
    intros g. induction e as [w|x|a IHa b IHb|a IHa b IHb]; cbn [eval]; [eauto| | |].
    - destruct (lookup x g) as [[]|]; eauto.
    - destruct IHa as [(x & ->)|[-> | ->]]; auto. destruct IHb as [(y & ->)|[-> | ->]]; auto. cbn [bind]. destruct (L (x + y)); eauto.
    - destruct IHa as [(x & ->)|[-> | ->]]; auto. destruct IHb as [(y & ->)|[-> | ->]]; auto. cbn [bind]. destruct (L (x - y)); eauto. }
  match goal with |- context [eval ?gg e] => destruct (B gg e) as [(z & E)|[E|E]]; rewrite E end; cbn [bind]; auto.
  unfold long. destruct ((- 2 ^ 63 <=? z - s) && (z - s <? 2 ^ 63)); cbn [bind]; auto.
Qed.
Print Assumptions C108_start_refuted.
Example C108_start_used : block Z xmem xenv (VSlice (Some (1%nat, 1)) 4) (Some (Num (-2))) None = UB. Proof. reflexivity. Qed.

(** An assignment outside the slice stops the program, whatever the memory; a slice literal whose memory cannot be had is written through a null pointer. *)
Theorem C108_outside : forall T St (m : mem T) p n i x (l : list (St -> T * St)) s,
  (i < 0 \/ n <= i -> assign T m (VSlice p n) i x = Panic) /\ (l <> [] -> return_literal T St m l s false = UB).
Proof.
  intros. split.
  - intros O. cbn [assign]. destruct (Z.ltb_spec i 0), (Z.leb_spec n i); cbn [orb]; try reflexivity; lia.
  - intros N. destruct l; [congruence|reflexivity].
Qed.
Print Assumptions C108_outside.
