(** C83: an index of an array or a slice finds the element or stops the program. *)
From Verif Require Import Common Index_Model Index_Spec Index_Proofs.
Local Open Scope Z_scope.

(** PARTIAL: for every typed program without raw pointers in which a slice is indexed only under the
    name of a variable, from every memory that fits the types: the C code does exactly what the
    program means.  Each index finds its element or stops the program, nothing is undefined,
    and memory still fits the types, so no slice ever leaves its object.
    Missing: slices that are elements, fields or results of calls (refuted below), slicing [a[i..j]]. *)
Theorem C83_index_partial : forall op g vars ks m l,
  (forall k x y, word x -> word y -> word (op k x y)) ->
  sound_mem g vars ks m -> Forall (good_stmt g vars) l ->
  run op g m l = steps op g m l
  /\ match run op g m l with Ok m' => sound_mem g vars ks m' | Panic => True | UB => False | Fuel => False end.
Proof.
  intros op g vars ks m l O SM F. destruct (run_steps g vars ks op O m l SM F) as (E & H).
  rewrite E. auto.
Qed.

(** let m: int[2][3]; let n: int = 0; fn f(s: int[]) ...: f(m[1]) and then s[n] = m[0][2]; m[1][n] = s[2] *)
Definition ig (x : nat) : ty := match x with 0%nat => TArr 2 (TArr 3 TInt) | 1%nat => TInt | _ => TSlice TInt end.
Definition iks := [repeat TInt 6; [TInt]; [TSlice TInt]].
Definition imem : mem := [map VInt [10; 11; 12; 20; 21; 22]; [VInt 0]; [VSlice (0%nat, 0) 0]].
Definition iop (k : nat) (x y : Z) : Z := (x + y) mod 2 ^ 32.
Definition iprog := [View 2 (Idx (Var 0) (Lit 1)); Set_ (Idx (Var 2) (Var 1)) (Idx (Idx (Var 0) (Lit 0)) (Lit 2));
  Set_ (Idx (Idx (Var 0) (Lit 1)) (Op 0 (Var 1) (Lit 1))) (Idx (Var 2) (Lit 2))].
Example C83_index_case : (forall k x y, word x -> word y -> word (iop k x y))
  /\ sound_mem ig 3 iks imem /\ Forall (good_stmt ig 3) iprog
  /\ run iop ig imem iprog = Ok [map VInt [10; 11; 12; 12; 22; 22]; [VInt 0]; [VSlice (0%nat, 3) 3]]
  /\ run iop ig imem (iprog ++ [Set_ (Idx (Var 2) (Lit 3)) (Lit 0)]) = Panic
  /\ run iop ig imem [Set_ (Idx (Idx (Var 0) (Lit 0)) (Lit 3)) (Lit 0)] = Panic
  /\ run iop ig imem [Set_ (Idx (Var 2) (Lit 0)) (Lit 0)] = Panic.
Proof.
  assert (W : forall z, 0 <= z < 2 ^ 32 -> word z) by (unfold word; intros; lia).
  splits; try (match goal with |- run _ _ _ _ = _ => vm_compute; reflexivity end).
  - intros k x y _ _. apply W. unfold iop. apply Z.mod_pos_bound. lia.
  - split.
    + unfold imem, iks. cbn [repeat map].
      repeat match goal with |- Forall2 _ _ _ => constructor end; cbn [fits]; try (apply W; lia).
      split; [|lia]. exists (repeat TInt 6), [], (repeat TInt 6).
      cbn [fst snd nth_error app length]. splits; auto; lia.
    + intros x X. destruct x as [|[|[|]]]; [| | |lia]; cbn [ig sound_type]; splits; auto; lia.
  - unfold iprog. repeat match goal with |- Forall _ _ => constructor end; cbn [good_stmt good typ ig];
      splits; auto; try exact Logic.I; try (apply W; lia).
    exists 3%nat, TInt. auto.
Qed.

(** A slice bound to an array is that array: for every memory, a write through the slice is a write to the
    array's element, and nothing else changes. *)
Theorem C83_view : forall op g vars ks m x s n i v,
  (forall k x y, word x -> word y -> word (op k x y)) ->
  sound_mem g vars ks m -> g x = TArr n TInt -> g s = TSlice TInt -> (x < vars)%nat -> (s < vars)%nat ->
  word i -> word v ->
  match run op g m [View s (Var x); Set_ (Idx (Var s) (Lit i)) (Lit v)] with
  | Ok m' => 0 <= i < Z.of_nat n
     /\ exists o o', nth_error m x = Some o /\ nth_error m' x = Some o' /\ length o = length o'
        /\ (forall k, nth_error o' k = if (k =? Z.to_nat i)%nat then Some (VInt v) else nth_error o k)
        /\ forall y, y <> x -> y <> s -> nth_error m' y = nth_error m y
  | Panic => ~ 0 <= i < Z.of_nat n
  | _ => False
  end.
Proof.
  intros op g vars ks m x s n i v O SM X S Lx Ls Wi Wv.
  assert (NE : x <> s) by (intros ->; congruence).
  assert (F : Forall (good_stmt g vars) [View s (Var x); Set_ (Idx (Var s) (Lit i)) (Lit v)]).
  { constructor; [|constructor; [|constructor]]; cbn [good_stmt good typ]; rewrite ?S, ?X; splits; auto; try exact Logic.I.
    exists n, TInt. auto. }
  destruct (run_steps g vars ks op O m _ SM F) as (E & _). rewrite E. clear E.
  destruct SM as (FM & V). destruct (V x Lx) as (Sx & Kx). destruct (V s Ls) as (_ & Ks).
  destruct (Forall2_nth _ _ _ _ _ FM Kx) as (o & Mo & Fo). apply Forall2_len in Fo.
  rewrite length_scalars, X in Fo. cbn [size] in Fo.
  destruct (Forall2_nth _ _ _ _ _ FM Ks) as (os & Ms & Fs). apply Forall2_len in Fs. rewrite S in Fs. cbn in Fs.
  destruct os as [|c [|]]; try discriminate Fs.
  cbn [steps step meaning typ bind]. rewrite X. unfold store at 1. cbn [fst snd]. rewrite Ms.
  change (0 <? 0) with false. change (Z.to_nat 0) with 0%nat. cbn [length Nat.ltb Nat.leb upd bind number content].
  rewrite S. unfold load. cbn [fst snd]. change (0 <? 0) with false. change (Z.to_nat 0) with 0%nat.
  assert (LM : (s < length m)%nat) by (apply nth_error_Some; congruence).
  change (0 <? 1)%nat with true. cbn [bind].
  rewrite nth_error_upd, Nat.eqb_refl. destruct (Nat.ltb_spec s (length m)); [|lia]. cbn [andb nth_error].
  unfold pick. destruct ((0 <=? i) && (i <? Z.of_nat n)) eqn:B; cbn [bind]; [|lia].
  unfold store. cbn [fst snd size]. destruct (Z.ltb_spec (0 + i * Z.of_nat 1) 0); [lia|].
  rewrite nth_error_upd. destruct (Nat.eqb_spec s x); [congruence|]. cbn [andb]. rewrite Mo.
  replace (Z.to_nat (0 + i * Z.of_nat 1)) with (Z.to_nat i) by lia.
  destruct (Nat.ltb_spec (Z.to_nat i) (length o)); [|lia].
  split; [lia|]. exists o, (upd o (Z.to_nat i) (VInt v)).
  assert (LX : (x < length m)%nat) by (apply nth_error_Some; congruence).
  splits; auto.
  - rewrite nth_error_upd, length_upd, Nat.eqb_refl. destruct (Nat.ltb_spec x (length m)); [reflexivity|lia].
  - now rewrite length_upd.
  - intros k. rewrite nth_error_upd, (Nat.eqb_sym k).
    destruct (Nat.eqb_spec (Z.to_nat i) k), (Nat.ltb_spec (Z.to_nat i) (length o)); cbn; auto; lia.
  - intros y Y1 Y2. rewrite !nth_error_upd.
    destruct (Nat.eqb_spec x y), (Nat.eqb_spec s y); try congruence. reflexivity.
Qed.
Definition vg (x : nat) : ty := match x with 0%nat => TArr 3 TInt | _ => TSlice TInt end.
Example C83_view_case : sound_mem vg 2 [repeat TInt 3; [TSlice TInt]] [map VInt [1; 2; 3]; [VSlice (0%nat, 0) 0]]
  /\ run iop vg [map VInt [1; 2; 3]; [VSlice (0%nat, 0) 0]] [View 1 (Var 0); Set_ (Idx (Var 1) (Lit 2)) (Lit 7)]
     = Ok [map VInt [1; 2; 7]; [VSlice (0%nat, 0) 3]].
Proof.
  assert (W : forall z, 0 <= z < 2 ^ 32 -> word z) by (unfold word; intros; lia).
  split; [|vm_compute; reflexivity]. split.
  - cbn [repeat map]. repeat match goal with |- Forall2 _ _ _ => constructor end; cbn [fits]; try (apply W; lia).
    split; [|lia]. exists (repeat TInt 3), [], (repeat TInt 3). cbn [fst snd nth_error app length]. splits; auto; lia.
  - intros x X. destruct x as [|[|]]; [| |lia]; cbn [vg sound_type]; splits; auto; lia.
Qed.

(** REFUTED: a slice that is not a plain variable, here an element of an array, is not checked: every index
    outside it is accepted.  It reads what lies beside the slice, or is undefined. *)
Theorem C83_element_slice_refuted : forall op g m x k t j q n z,
  g x = TArr k (TSlice t) -> 0 <= j < Z.of_nat k -> Z.of_nat k < 2 ^ 31 ->
  load m (x, j) = Ok (VSlice q n) -> ~ 0 <= z < n ->
  meaning op g m (Idx (Idx (Var x) (Lit j)) (Lit z)) = Panic
  /\ cev op g m (emit g (Idx (Idx (Var x) (Lit j)) (Lit z)))
     = let p := (fst q, snd q + z * Z.of_nat (size t)) in
       if inside m p (size t) then Ok (RLoc p t) else UB.
Proof.
  intros op g m x k t j q n z X J K L NZ. split.
  - cbn [meaning typ bind number]. rewrite X. unfold pick at 1. cbn [fst snd size].
    replace ((0 <=? j) && (j <? Z.of_nat k)) with true by lia. cbn [bind].
    replace (0 + j * Z.of_nat 1) with j by lia. rewrite L. unfold pick.
    replace ((0 <=? z) && (z <? n)) with false by lia. reflexivity.
  - cbn [emit typ is_var]. rewrite X. destruct (Nat.ltb_spec 0 k); [|lia].
    cbn [cev bind as_int]. rewrite X.
    assert (WJ : word j). { unfold word. change (- 2 ^ 63) with (-9223372036854775808). change (2 ^ 64) with 18446744073709551616. change (2 ^ 31) with 2147483648 in K. lia. }
    rewrite (to_long_word j (Z.of_nat k) WJ) by lia.
    replace ((0 <=? j) && (j <? Z.of_nat k)) with true by lia. cbn [bind as_int element fst snd size].
    replace ((0 <=? j) && (j <? Z.of_nat k)) with true by lia. cbn [bind slice_of].
    replace (0 + j * Z.of_nat 1) with j by lia. rewrite L. reflexivity.
Qed.
(** An array of two slices of a row of three: rows[0] holds the first two elements; rows[0][2] is the third,
    rows[0][3] is outside the row. *)
Example C83_element_slice_case :
  let g := fun x => match x with 0%nat => TArr 3 TInt | _ => TArr 2 (TSlice TInt) end in
  let m := [map VInt [1; 2; 3]; [VSlice (0%nat, 0) 2; VSlice (0%nat, 1) 1]] in
  load m (1%nat, 0) = Ok (VSlice (0%nat, 0) 2)
  /\ cev iop g m (emit g (Idx (Idx (Var 1) (Lit 0)) (Lit 2))) = Ok (RLoc (0%nat, 2) TInt)
  /\ cev iop g m (emit g (Idx (Idx (Var 1) (Lit 0)) (Lit 3))) = UB
  /\ cev iop g m (emit g (Idx (Idx (Var 1) (Lit 2)) (Lit 0))) = Panic.
Proof. vm_compute. auto. Qed.

(** REFUTED: an index wider than 64 bits is reduced before the check: index 2^64 + z passes as z. *)
Theorem C83_wide_index_refuted : forall z n, 0 <= z < n -> n < 2 ^ 31 ->
  check_bounds (2 ^ 64 + z) n = Ok z /\ ~ 0 <= 2 ^ 64 + z < n.
Proof.
  intros z n HZ N. split; [|lia].
  assert (E : to_long (2 ^ 64 + z) = to_long z).
  { unfold to_long. replace (2 ^ 64 + z + 2 ^ 63) with (z + 2 ^ 63 + 1 * 2 ^ 64) by lia.
    rewrite Z_mod_plus_full. reflexivity. }
  unfold check_bounds. rewrite E. change (check_bounds z n = Ok z).
  assert (WZ : word z). { unfold word. change (- 2 ^ 63) with (-9223372036854775808). change (2 ^ 64) with 18446744073709551616. change (2 ^ 31) with 2147483648 in N. lia. }
  rewrite (to_long_word z n WZ) by lia.
  replace ((0 <=? z) && (z <? n)) with true by lia. reflexivity.
Qed.

(** PARTIAL: a literal index below 2^31 of a fixed array draws the compile-time warning exactly when it is out of
    range. *)
Theorem C83_warning_partial : forall g a n t z, typ g a = TArr n t -> (0 < n)%nat -> 0 <= z < 2 ^ 31 ->
  warns g a (Lit z) = true <-> ~ z < Z.of_nat n.
Proof.
  intros g a n t z T N HZ. unfold warns. rewrite T. 
  replace (to_int z) with z.
  2:{ unfold to_int. change (2 ^ 31) with 2147483648 in *. change (2 ^ 32) with 4294967296. rewrite Z.mod_small; lia. }
  destruct (Nat.ltb_spec 0 n); [|lia]. cbn [andb]. split; lia.
Qed.
(** REFUTED: larger literals are reduced to an int first. *)
Theorem C83_warning_refuted : forall g a n t z, typ g a = TArr n t -> 0 <= z < Z.of_nat n -> Z.of_nat n < 2 ^ 31 ->
  warns g a (Lit (2 ^ 32 + z)) = false /\ ~ 2 ^ 32 + z < Z.of_nat n.
Proof.
  intros g a n t z T HZ N. split; [|lia]. unfold warns. rewrite T.
  replace (to_int (2 ^ 32 + z)) with z.
  - destruct (Nat.ltb_spec 0 n); [|lia]. cbn [andb]. lia.
  - unfold to_int. change (2 ^ 31) with 2147483648 in *. change (2 ^ 32) with 4294967296 in *.
    replace (4294967296 + z + 2147483648) with (z + 2147483648 + 1 * 4294967296) by lia.
    rewrite Z_mod_plus_full, Z.mod_small; lia.
Qed.
Example C83_warning_case : typ vg (Var 0) = TArr 3 TInt /\ warns vg (Var 0) (Lit 3) = true /\ warns vg (Var 0) (Lit 2) = false
  /\ warns vg (Var 0) (Lit (2 ^ 32 + 1)) = false.
Proof. vm_compute. auto. Qed.

Print Assumptions C83_index_partial.
Print Assumptions C83_view.
Print Assumptions C83_element_slice_refuted.
Print Assumptions C83_wide_index_refuted.
Print Assumptions C83_warning_partial.
Print Assumptions C83_warning_refuted.
