From Verif Require Import Common Slice_Model Slice_Spec Slice_Proofs Ctype_Model Cut_Model Cut_Spec.
Local Open Scope Z_scope.

Lemma pow31 : 2 ^ 31 = 2147483648. Proof. reflexivity. Qed.
Lemma pow32 : 2 ^ 32 = 4294967296. Proof. reflexivity. Qed.
Lemma pow63 : 2 ^ 63 = 9223372036854775808. Proof. reflexivity. Qed.

Lemma to_int_id z : 0 <= z < 2 ^ 31 -> to_int z = z.
Proof. unfold to_int. rewrite pow31, pow32. intros H. rewrite Z.mod_small by lia. lia. Qed.
Lemma to_int_neg z : - 2 ^ 31 <= z < 2 ^ 31 -> to_int z = z.
Proof. unfold to_int. rewrite pow31, pow32. intros H. rewrite Z.mod_small by lia. lia. Qed.

Lemma eval_skip x v g e : plain e -> x = n_arr \/ x = n_start \/ x = n_len -> eval ((x, v) :: g) e = eval g e.
Proof.
  intros P X. induction e; cbn [plain eval] in *.
  - reflexivity.
  - cbn [lookup]. destruct (beq_bytes x0 x) eqn:E; [|reflexivity].
    apply beq_bytes_true in E. subst x0. destruct P as (A & B & C). unfold n_arr, n_start, n_len in X. destruct X as [X | [X|X]]; contradiction.
  - destruct P. now rewrite IHe1, IHe2.
  - destruct P. now rewrite IHe1, IHe2.
Qed.

Section P.
Variable T : Type.

Lemma at_part (m : mem T) p vs s e : at_ T m p vs -> 0 <= s <= e -> e <= Z.of_nat (length vs) ->
  at_ T m (shift p s) (part T s e vs) /\ Z.of_nat (length (part T s e vs)) = e - s.
Proof.
  intros (b & pre & post & -> & E) H1 H2. unfold part. split.
  - exists b, (pre ++ firstn (Z.to_nat s) vs), (skipn (Z.to_nat (e - s)) (skipn (Z.to_nat s) vs) ++ post). split.
    + cbn [shift]. rewrite app_length, firstn_length. f_equal. f_equal. lia.
    + rewrite E. f_equal. f_equal. rewrite <- app_assoc. f_equal. rewrite <- (firstn_skipn (Z.to_nat s) vs) at 1. rewrite <- app_assoc. f_equal.
      rewrite <- (firstn_skipn (Z.to_nat (e - s)) (skipn (Z.to_nat s) vs)) at 1. now rewrite <- app_assoc.
  - rewrite firstn_length, skipn_length. lia.
Qed.

Lemma ptr_add_ok (m : mem T) p vs s : at_ T m p vs -> 0 <= s <= Z.of_nat (length vs) -> ptr_add T m p s = Ok (shift p s).
Proof.
  intros (b & pre & post & -> & E) H. unfold ptr_add. rewrite E. rewrite !app_length.
  destruct (Z.leb_spec 0 (Z.of_nat (length pre) + s)); [|lia].
  destruct (Z.leb_spec (Z.of_nat (length pre) + s) (Z.of_nat (length pre + (length vs + length post)))); [|lia]. reflexivity.
Qed.

Lemma long_ok z : - 2 ^ 63 <= z < 2 ^ 63 -> long z = Ok z.
Proof. intros H. unfold long. destruct (Z.leb_spec (- 2 ^ 63) z); [|lia]. destruct (Z.ltb_spec z (2 ^ 63)); [reflexivity|lia]. Qed.

Lemma block_ok (m : mem T) g v vs so eo s e : shows T m v vs -> Z.of_nat (length vs) < 2 ^ 31 ->
  bound g so 0 s -> bound g eo (Z.of_nat (length vs)) e -> (forall p, v = VPtr p -> eo <> None) ->
  0 <= s <= e -> e <= Z.of_nat (length vs) ->
  exists q, block T m g v so eo = Ok (VSlice q (e - s)) /\ shows T m (VSlice q (e - s)) (part T s e vs).
Proof.
  intros Hv L Bs Be Np H1 H2. rewrite pow31 in L.
  assert (I : match so with Some x => eval ((n_start, VUninit) :: (n_arr, v) :: g) x | None => Ok 0 end = Ok s).
  { destruct so as [x|]; cbn [bound] in Bs; [|now subst]. destruct Bs as (P & E). rewrite !eval_skip by (auto; fail). exact E. }
  assert (J : match eo with
              | Some x => do z <- eval ((n_len, VUninit) :: (n_start, VInt s) :: (n_arr, v) :: g) x; long (z - s)
              | None => match v with VSlice _ n => Ok (n - s) | _ => Ok 0 end end = Ok (e - s)).
  { destruct eo as [x|]; cbn [bound] in Be.
    - destruct Be as (P & E). rewrite !eval_skip by (auto; fail). rewrite E. cbn [bind]. apply long_ok. rewrite pow63. lia.
    - subst e. destruct v; cbn [shows] in Hv; try contradiction. + exfalso. now apply (Np p). + destruct Hv as (_ & ->). reflexivity. }
  unfold block. rewrite I. cbn [bind]. rewrite (to_int_id s) by (rewrite pow31; lia). rewrite J. cbn [bind]. rewrite (to_int_id (e - s)) by (rewrite pow31; lia).
  assert (A : exists p, at_ T m p vs /\ ((v = VPtr p) \/ v = VSlice p (Z.of_nat (length vs)))).
  { destruct v; cbn [shows] in Hv; try contradiction; [exists p; auto|]. destruct Hv as (A & ->). exists p; auto. }
  destruct A as (p & A & D). exists (shift p s). destruct (at_part m p vs s e A H1 H2) as (A' & L').
  split.
  - destruct D as [-> | ->]; rewrite (ptr_add_ok m p vs s A) by lia; reflexivity.
  - cbn [shows]. split; [exact A'|lia].
Qed.

Lemma bound_skip v g o d z : bound ((n_arr, v) :: g) o d z <-> bound g o d z.
Proof. destruct o; cbn [bound]; [|tauto]. split; intros (P & E); split; auto; rewrite eval_skip in * by auto; auto. Qed.

Lemma chain_skip v g x vs ip a ws : chain T g x vs ip a ws -> chain T ((n_arr, v) :: g) x vs ip a ws.
Proof. induction 1; econstructor; eauto; apply bound_skip; auto. Qed.

Lemma part_len s e (vs : list T) : (length (part T s e vs) <= length vs)%nat.
Proof. unfold part. rewrite firstn_length, skipn_length. lia. Qed.
Lemma chain_len g x vs ip a ws : chain T g x vs ip a ws -> (length ws <= length vs)%nat.
Proof. induction 1; [lia|]. pose proof (part_len s e ws). lia. Qed.

Lemma run_ok (m : mem T) a : forall g x v vs ip ws, lookup x g = Some v -> shows T m v vs -> Z.of_nat (length vs) < 2 ^ 31 ->
  (ip = false -> forall p, v <> VPtr p) -> chain T g x vs ip a ws ->
  exists w, run T m g a = Ok w /\ shows T m w ws /\ ((exists b s e, a = SCut b s e) -> exists q n, w = VSlice q n).
Proof.
  induction a as [y|a IH so eo]; intros g x v vs ip ws Lk Sh L Ip C; inversion C; subst.
  - exists v. cbn [run]. rewrite Lk. splits; auto; [destruct v; cbn [shows] in Sh; try contradiction; reflexivity|]. intros (b & s & e & X). discriminate.
  - assert (Xn : x <> bs "_arr").
    { clear -H2. induction H2; auto. }
    destruct (IH ((n_arr, VUninit) :: g) x v vs ip ws0) as (w & R & Sw & Wc); auto.
    { cbn [lookup]. destruct (beq_bytes x n_arr) eqn:E; auto. apply beq_bytes_true in E. contradiction. }
    { now apply chain_skip. }
    pose proof (chain_len _ _ _ _ _ _ H2) as Lw.
    destruct (block_ok m g w ws0 so eo s e) as (q & B & Sq); auto; try lia.
    { intros p ->. destruct ip.
      - destruct (H5 eq_refl) as [N | N]; auto. destruct (Wc N) as (q & n & W). discriminate.
      - inversion H2; subst; [|destruct (Wc ltac:(eauto)) as (q & n & W); discriminate].
        cbn [run] in R. cbn [lookup] in R. destruct (beq_bytes x n_arr) eqn:E. { apply beq_bytes_true in E. contradiction. }
        rewrite Lk in R. exfalso. destruct v; cbn [shows] in Sh; try contradiction; try discriminate. exact (Ip eq_refl p0 eq_refl). }
    exists (VSlice q (e - s)). cbn [run]. rewrite R. cbn [bind]. rewrite B. splits; auto. intros _. eauto.
Qed.
End P.
