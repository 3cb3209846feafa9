(** C90: slices and raw memory. *)
From Verif Require Import Common Slice_Model Slice_Spec Slice_Proofs.
Local Open Scope Z_scope.

(** A for-in loop over a slice yields the elements it covers, in order, and stops. *)
Theorem C90_iterate : forall T (m : mem T) p vs fuel,
  at_ T m p vs -> Z.of_nat (length vs) < 2 ^ 64 -> (length vs < fuel)%nat ->
  collect T fuel m (iterator (new p (Z.of_nat (length vs)))) = Ok vs.
Proof. intros T m p vs fuel A L F. apply (collect_ok T vs m p fuel A L 0); lia. Qed.
Print Assumptions C90_iterate.

(** Getting an element by number: the element, or nothing from the length on.  The length and the emptiness. *)
Theorem C90_get : forall T (m : mem T) p vs idx,
  at_ T m p vs -> 0 <= idx -> let s := new p (Z.of_nat (length vs)) in
  get T m s idx = Ok (nth_error vs (Z.to_nat idx)) /\ length_ s = Z.of_nat (length vs) /\ (is_empty s = true <-> vs = []).
Proof.
  intros T m p vs idx A H. cbv zeta. split; [apply get_ok; auto|]. split; [reflexivity|].
  unfold is_empty, new. cbn [s_len]. rewrite Z.eqb_eq. destruct vs; cbn [length]; split; intros X; try reflexivity; try discriminate; lia.
Qed.
Print Assumptions C90_get.

(** A slice is a view: after an element is written in the array, the slice shows it. *)
Theorem C90_view : forall T (m : mem T) p vs k v fuel,
  at_ T m p vs -> Z.of_nat (length vs) < 2 ^ 64 -> (k < length vs)%nat -> (length vs < fuel)%nat ->
  exists m', store T m (shift p (Z.of_nat k)) v = Ok m' /\ collect T fuel m' (iterator (new p (Z.of_nat (length vs)))) = Ok (upd vs k v).
Proof.
  intros T m p vs k v fuel A L K F. destruct (at_store T m p vs k v A K) as (m' & E & A'). exists m'. split; auto.
  rewrite <- (length_upd vs k v). apply C90_iterate; rewrite ?length_upd; auto.
Qed.
Print Assumptions C90_view.

(** False: a slice may be longer than what it points at, and nothing checks it. *)
Theorem C90_long_refuted : forall T (m : mem T) b l n, nth_error m b = Some (Live T l) -> Z.of_nat (length l) < n ->
  get T m (new (Some (b, 0)) n) (Z.of_nat (length l)) = UB.
Proof.
  intros T m b l n E L. unfold get, new. cbn [s_len s_data shift]. destruct (Z.leb_spec n (Z.of_nat (length l))); [lia|].
  unfold load. rewrite E. destruct (Z.leb_spec (Z.of_nat (length l)) (0 + Z.of_nat (length l))); [|lia]. now rewrite orb_true_r.
Qed.
Print Assumptions C90_long_refuted.

(** swap exchanges two values, also of one place with itself, and changes nothing else. *)
Theorem C90_swap : forall T (m : mem T) a b x y, load T m a = Ok x -> load T m b = Ok y ->
  exists m', swap T m a b = Ok m' /\ load T m' a = Ok y /\ load T m' b = Ok x /\ forall q, q <> a -> q <> b -> load T m' q = load T m q.
Proof. exact swap_ok. Qed.
Print Assumptions C90_swap.

(** mem_zero makes exactly the elements asked zero. *)
Theorem C90_zero : forall T (zero : T) sz m p vs, 0 < sz -> sz * Z.of_nat (length vs) < 2 ^ 64 -> at_ T m p vs ->
  exists m', mem_zero T zero sz m p (Z.of_nat (length vs)) = Ok m' /\ at_ T m' p (repeat zero (length vs)) /\ only T p (length vs) m m'.
Proof. exact zero_ok. Qed.
Print Assumptions C90_zero.

(** mem_copy makes the destination equal to the source and changes nothing else, when the two do
    not overlap. *)
Theorem C90_copy_partial : forall T sz m d s ds ss, 0 < sz -> sz * Z.of_nat (length ss) < 2 ^ 64 -> length ds = length ss ->
  at_ T m d ds -> at_ T m s ss -> (forall q, within d (length ss) q -> ~ within s (length ss) q) ->
  exists m', mem_copy T sz m d s (Z.of_nat (length ss)) = Ok m' /\ at_ T m' d ss /\ at_ T m' s ss /\ only T d (length ss) m m'.
Proof.
  intros T sz m d s ds ss S L Ld A B D. unfold mem_copy. rewrite Z.mod_small by nia. rewrite (Z.mul_comm sz), Z.div_mul, Nat2Z.id by lia.
  assert (V : overlap d s (Z.of_nat (length ss)) = false).
  { unfold overlap. destruct d as [[b i]|]; auto. destruct s as [[c j]|]; auto.
    destruct (Nat.eqb_spec b c) as [<-|]; auto. cbn [andb]. destruct (Z.ltb_spec 0 (Z.of_nat (length ss))); auto. cbn [andb].
    destruct (Z.ltb_spec i (j + Z.of_nat (length ss))) as [X|]; auto. destruct (Z.ltb_spec j (i + Z.of_nat (length ss))) as [Y|]; auto. exfalso.
    destruct (Z.le_ge_cases i j) as [G|G].
    - apply (D (Some (b, j))); [exists (Z.to_nat (j - i))|exists 0%nat]; cbn [shift]; (split; [lia|]); do 2 f_equal; lia.
    - apply (D (Some (b, i))); [exists 0%nat|exists (Z.to_nat (i - j))]; cbn [shift]; (split; [lia|]); do 2 f_equal; lia. }
  rewrite V. destruct (copy_ok T ss m d ds s Ld A B) as (m' & C & R & O & (b & pre & post & P & E)).
  { intros k j Hk Hj X. apply (D (shift d (Z.of_nat k))); [exists k; auto|]. rewrite X. exists j. auto. }
  exists m'. split; [exact C|]. split; [exists b, pre, post; auto|]. split; [|exact O].
  eapply at_same; [exact B| |exact C]. intros k Hk. apply O. intros W. apply (D _ W). exists k. auto.
Qed.
Print Assumptions C90_copy_partial.

(** False in general: copying within one array onto a range that shares elements is undefined. *)
Theorem C90_copy_refuted : forall T sz m b i j n, 0 < sz -> sz * n < 2 ^ 64 -> 0 < n -> i < j + n -> j < i + n ->
  mem_copy T sz m (Some (b, i)) (Some (b, j)) n = UB.
Proof.
  intros T sz m b i j n S L N X Y. unfold mem_copy. rewrite Z.mod_small by nia. rewrite (Z.mul_comm sz), Z.div_mul by lia.
  unfold overlap. rewrite Nat.eqb_refl. destruct (Z.ltb_spec 0 n); [|lia]. destruct (Z.ltb_spec i (j + n)); [|lia]. destruct (Z.ltb_spec j (i + n)); [|lia]. reflexivity.
Qed.
Print Assumptions C90_copy_refuted.

(** alloc_n gives a new array of n elements and leaves the others alone, while n elements are
    less than 2^64 bytes. *)
Theorem C90_alloc_partial : forall T sz m n junk, 0 < sz -> 0 <= n -> sz * n < 2 ^ 64 ->
  exists m' p vs, alloc_n T sz m n junk = (m', p) /\ at_ T m' p vs /\ Z.of_nat (length vs) = n /\ forall q, load T m q <> UB -> load T m' q = load T m q.
Proof. exact alloc_ok. Qed.
Print Assumptions C90_alloc_partial.

(** False from 2^64 bytes on: the size wraps, and the last of the n elements is outside. *)
Theorem C90_alloc_refuted : forall T sz m n junk v, 0 < sz -> 0 <= n < 2 ^ 64 -> 2 ^ 64 <= sz * n ->
  let '(m', p) := alloc_n T sz m n junk in store T m' (shift p (n - 1)) v = UB.
Proof. exact alloc_short. Qed.
Print Assumptions C90_alloc_refuted.

(** A new box holds the zero value; False: after free it does not say it is null, and freeing it
    again is undefined. *)
Theorem C90_box_refuted : forall T (zero : T) m, exists m1 p m2,
  zalloc T zero m = (m1, p) /\ load T m1 p = Ok zero /\ box_is_null p = false /\
  box_free T m1 p = Ok (m2, p) /\ box_is_null p = false /\ load T m2 p = UB /\ box_free T m2 p = UB.
Proof.
  intros T zero m. do 3 eexists. split; [reflexivity|].
  assert (E : nth_error (m ++ [Live T [zero]]) (length m) = Some (Live T [zero])) by (rewrite nth_error_app2, Nat.sub_diag by lia; reflexivity).
  assert (E2 : nth_error (upd (m ++ [Live T [zero]]) (length m) (Freed T)) (length m) = Some (Freed T)) by (eapply nth_upd_same; exact E).
  split; [unfold load; rewrite E; reflexivity|]. split; [reflexivity|].
  split; [unfold box_free, free_; rewrite E; reflexivity|]. split; [reflexivity|].
  split; [unfold load; rewrite E2; reflexivity|]. unfold box_free, free_. rewrite E2. reflexivity.
Qed.
Print Assumptions C90_box_refuted.

(** The hypotheses are met: three elements in the middle of a block, and a second block. *)
Example C90_case :
  let m := [Live nat [1; 2; 3; 4; 5]%nat; Live nat [7; 8; 9]%nat] in
  at_ nat m (Some (0%nat, 1)) [2; 3; 4]%nat /\ at_ nat m (Some (1%nat, 0)) [7; 8; 9]%nat /\
  collect nat 4 m (iterator (new (Some (0%nat, 1)) 3)) = Ok [2; 3; 4]%nat /\
  mem_copy nat 4 m (Some (0%nat, 1)) (Some (1%nat, 0)) 3 = Ok [Live nat [1; 7; 8; 9; 5]%nat; Live nat [7; 8; 9]%nat] /\
  swap nat m (Some (0%nat, 4)) (Some (1%nat, 1)) = Ok [Live nat [1; 2; 3; 4; 8]%nat; Live nat [7; 5; 9]%nat] /\
  mem_zero nat 0%nat 4 m (Some (0%nat, 2)) 2 = Ok [Live nat [1; 2; 0; 0; 5]%nat; Live nat [7; 8; 9]%nat].
Proof.
  cbv zeta. split; [exists 0%nat, [1%nat], [5%nat]; split; reflexivity|]. split; [exists 1%nat, [], []; split; reflexivity|].
  split; [vm_compute; reflexivity|]. split; [vm_compute; reflexivity|]. split; vm_compute; reflexivity.
Qed.
