(** Proofs about indexing. *)
From Verif Require Import Common Index_Model Index_Spec.
Local Open Scope Z_scope.

Lemma length_concat_repeat {A} (l : list A) n : length (concat (repeat l n)) = (n * length l)%nat.
Proof. induction n; cbn [repeat concat Nat.mul]; auto. rewrite app_length. lia. Qed.
Lemma concat_repeat_app {A} (l : list A) n k :
  concat (repeat l (n + k)) = concat (repeat l n) ++ concat (repeat l k).
Proof. rewrite repeat_app. now rewrite concat_app. Qed.

Lemma length_scalars t : length (scalars t) = size t.
Proof. induction t; cbn [scalars size]; auto. rewrite length_concat_repeat. lia. Qed.

Lemma row_pick ks p n t z : row ks p n t -> 0 <= z < n ->
  row ks (fst p, snd p + z * Z.of_nat (size t)) 1 t.
Proof.
  intros (o & b & a & E & N & -> & P) Z. unfold row. cbn [fst snd].
  exists (b ++ concat (repeat (scalars t) (Z.to_nat n)) ++ a),
    (b ++ concat (repeat (scalars t) (Z.to_nat z))),
    (concat (repeat (scalars t) (Z.to_nat (n - z - 1))) ++ a).
  split; [exact E|]. split; [lia|]. split.
  - replace (Z.to_nat n) with (Z.to_nat z + (1 + Z.to_nat (n - z - 1)))%nat by lia.
    rewrite !concat_repeat_app. change (Z.to_nat 1) with 1%nat. now rewrite <- !app_assoc.
  - rewrite app_length, length_concat_repeat, length_scalars, P. lia.
Qed.

Lemma row_array ks p n t : row ks p 1 (TArr n t) -> row ks p (Z.of_nat n) t.
Proof.
  intros (o & b & a & E & N & -> & P). unfold row.
  exists (b ++ concat (repeat (scalars (TArr n t)) (Z.to_nat 1)) ++ a), b, a.
  split; [exact E|]. split; [lia|]. split; auto.
  rewrite Nat2Z.id. change (Z.to_nat 1) with 1%nat. cbn [repeat concat scalars]. now rewrite app_nil_r.
Qed.

Lemma Forall2_len {A B} (R : A -> B -> Prop) l1 l2 : Forall2 R l1 l2 -> length l1 = length l2.
Proof. induction 1; cbn; auto. Qed.

  Lemma to_long_word z n : word z -> 0 <= n < 2 ^ 31 ->
    check_bounds z n = if (0 <=? z) && (z <? n) then Ok z else Panic.
  Proof.
    unfold word, check_bounds, to_long. intros W N.
    change (2 ^ 63) with 9223372036854775808 in *. change (2 ^ 64) with 18446744073709551616 in *.
    change (2 ^ 31) with 2147483648 in *.
    replace ((n + 9223372036854775808) mod 18446744073709551616 - 9223372036854775808) with n
      by (rewrite Z.mod_small; lia).
    destruct (Z.ltb_spec z 9223372036854775808).
    - replace ((z + 9223372036854775808) mod 18446744073709551616 - 9223372036854775808) with z
        by (rewrite Z.mod_small; lia).
      destruct (Z.ltb_spec z 0), (Z.leb_spec 0 z), (Z.leb_spec n z), (Z.ltb_spec z n); cbn; auto; lia.
    - replace ((z + 9223372036854775808) mod 18446744073709551616 - 9223372036854775808) with (z - 18446744073709551616).
      2:{ symmetry. assert ((z + 9223372036854775808) mod 18446744073709551616 = z - 9223372036854775808); [|lia].
          symmetry. apply (Z.mod_unique _ _ 1); lia. }
      destruct (Z.ltb_spec (z - 18446744073709551616) 0); [|lia].
      destruct (Z.leb_spec 0 z), (Z.ltb_spec z n); cbn; auto; lia.
  Qed.

Section Mem.
  Variable g : nat -> ty.
  Variable vars : nat.
  Variable ks : list (list ty).

  Lemma Forall2_nth {A B} (R : A -> B -> Prop) l1 l2 i x : Forall2 R l1 l2 -> nth_error l1 i = Some x ->
    exists y, nth_error l2 i = Some y /\ R x y.
  Proof.
    intros F. revert i. induction F; intros i E; [destruct i; discriminate|].
    destruct i; cbn in E |- *; [injection E as <-; eauto|]. auto.
  Qed.

  Lemma row_inside m p t : sound_mem g vars ks m -> row ks p 1 t -> inside m p (size t) = true.
  Proof.
    intros [F _] (o & b & a & E & N & -> & P).
    destruct (Forall2_nth _ _ _ _ _ F E) as (o' & E' & F'). unfold inside. rewrite E'.
    apply Forall2_len in F'. rewrite !app_length, length_concat_repeat, length_scalars in F'.
    change (Z.to_nat 1) with 1%nat in F'. lia.
  Qed.

  Lemma row_load m p t : sound_mem g vars ks m -> row ks p 1 t -> scalar t -> 
    exists c, load m p = Ok c /\ fits ks t c.
  Proof.
    intros [F _] (o & b & a & E & N & -> & P) S.
    destruct (Forall2_nth _ _ _ _ _ F E) as (o' & E' & F'). unfold load. rewrite E', P, Nat2Z.id.
    destruct (Z.ltb_spec (Z.of_nat (length b)) 0); [lia|].
    assert (T : nth_error (b ++ concat (repeat (scalars t) (Z.to_nat 1)) ++ a) (length b) = Some t).
    { rewrite nth_error_app2, Nat.sub_diag by lia. change (Z.to_nat 1) with 1%nat.
      destruct t; try contradiction; reflexivity. }
    destruct (Forall2_nth _ _ _ _ _ F' T) as (c & -> & C). eauto.
  Qed.

  Lemma Forall2_upd {A B} (R : A -> B -> Prop) l1 l2 i x y : Forall2 R l1 l2 -> nth_error l1 i = Some x -> R x y ->
    Forall2 R l1 (upd l2 i y).
  Proof.
    intros F. revert i. induction F; intros i E H'; [constructor|].
    destruct i; cbn in E |- *; [injection E as ->; constructor; auto|]. constructor; eauto.
  Qed.

  Lemma row_store m p t c : sound_mem g vars ks m -> row ks p 1 t -> scalar t -> fits ks t c ->
    exists m', store m p c = Ok m' /\ sound_mem g vars ks m'.
  Proof.
    intros [F V] (o & b & a & E & N & -> & P) S C.
    destruct (Forall2_nth _ _ _ _ _ F E) as (o' & E' & F'). unfold store. rewrite E', P, Nat2Z.id.
    destruct (Z.ltb_spec (Z.of_nat (length b)) 0); [lia|].
    assert (T : nth_error (b ++ concat (repeat (scalars t) (Z.to_nat 1)) ++ a) (length b) = Some t).
    { rewrite nth_error_app2, Nat.sub_diag by lia. change (Z.to_nat 1) with 1%nat.
      destruct t; try contradiction; reflexivity. }
    destruct (Forall2_nth _ _ _ _ _ F' T) as (c' & N' & C').
    destruct (Nat.ltb_spec (length b) (length o')).
    2:{ apply nth_error_None in H0. congruence. }
    eexists. split; [reflexivity|]. split; auto.
    eapply Forall2_upd; [exact F|exact E|]. eapply Forall2_upd; eauto.
  Qed.

  Lemma var_row m x : sound_mem g vars ks m -> (x < vars)%nat -> row ks (x, 0) 1 (g x) /\ sound_type (g x).
  Proof.
    intros [F V] L. destruct (V x L) as (S & E). split; auto.
    exists (scalars (g x)), [], []. cbn [fst snd length app]. splits; auto; try lia.
    change (Z.to_nat 1) with 1%nat. cbn [repeat concat]. now rewrite !app_nil_r.
  Qed.

  Variable op : nat -> Z -> Z -> Z.
  Hypothesis op_word : forall k x y, word x -> word y -> word (op k x y).

  Definition agrees (m : mem) (t : ty) (r : res place) (c : res cres) : Prop :=
    match r with
    | Ok (Num z) => c = Ok (RInt z) /\ t = TInt /\ word z
    | Ok (At p) => c = Ok (RLoc p t) /\ row ks p 1 t /\ sound_type t
    | Panic => c = Panic
    | _ => False
    end.

  Lemma number_agrees m r c : sound_mem g vars ks m -> agrees m TInt r c ->
    match (do v <- r; number m v) with
    | Ok z => (do v <- c; as_int m v) = Ok z /\ word z
    | Panic => (do v <- c; as_int m v) = Panic
    | _ => False
    end.
  Proof.
    intros SM A. destruct r as [[z|p]| | |]; cbn [agrees bind] in *; try contradiction.
    - destruct A as (-> & _ & W). cbn. auto.
    - destruct A as (-> & R & _). destruct (row_load m p TInt SM R Logic.I) as (v & L & V).
      cbn [number bind as_int]. rewrite L. destruct v; cbn [fits] in V; try contradiction. cbn [bind]. auto.
    - subst. reflexivity.
  Qed.

  Lemma bind_assoc {A B C} (r : res A) (f : A -> res B) (h : B -> res C) :
    (do y <- (do x <- r; f x); h y) = (do x <- r; do y <- f x; h y).
  Proof. destruct r; reflexivity. Qed.

  Lemma meaning_agrees m e : sound_mem g vars ks m -> good g vars e ->
    agrees m (typ g e) (meaning op g m e) (cev op g m (emit g e)).
  Proof.
    intros SM. induction e as [z|x|a IHa i IHi|k a IHa b IHb]; intros G; cbn [good] in G.
    - cbn. auto.
    - cbn. destruct (var_row m x SM G) as (R & S). auto.
    - destruct G as (Ga & Gi & Ti & K). specialize (IHa Ga). specialize (IHi Gi). rewrite Ti in IHi.
      apply (number_agrees m _ _ SM) in IHi.
      cbn [meaning emit typ].
      destruct (typ g a) as [|n t|t|t] eqn:TA; try contradiction.
      + (* a fixed array *)
        destruct (meaning op g m a) as [[?|p]| | |]; cbn [agrees] in IHa; try contradiction.
        * destruct IHa as (_ & H & _). discriminate.
        * destruct IHa as (Ea & R & S). cbn [sound_type] in S. destruct S as (N0 & N1 & S).
          destruct (Nat.ltb_spec 0 n); [|lia]. cbn [cev bind]. rewrite Ea. cbn [bind].
          rewrite <- !bind_assoc.
          destruct (do z <- meaning op g m i; number m z) as [z| | |]; try contradiction.
          -- destruct IHi as (Ei & W). rewrite Ei. cbn [bind as_int].
             rewrite to_long_word by (auto; lia). unfold pick.
             destruct ((0 <=? z) && (z <? Z.of_nat n)) eqn:B; cbn [bind as_int element].
             ++ rewrite B. cbn [agrees]. splits; auto.
                apply row_pick with (n := Z.of_nat n); [now apply row_array|lia].
             ++ reflexivity.
          -- rewrite IHi. reflexivity.
        * cbn [cev bind]. rewrite IHa. reflexivity.
      + (* a slice variable *)
        rewrite K. destruct a as [|x| |]; try discriminate K. cbn [meaning emit typ cev bind] in *.
        destruct IHa as (_ & R & S). destruct (row_load m _ _ SM R Logic.I) as (c & L & F).
        rewrite TA, L. destruct c as [|q n|]; cbn [fits] in F; try contradiction. destruct F as (RW & N).
        cbn [slice_of bind]. rewrite L. cbn [bind].
        rewrite <- !bind_assoc.
        destruct (do z <- meaning op g m i; number m z) as [z| | |]; try contradiction.
        * destruct IHi as (Ei & W). rewrite Ei. cbn [bind as_int].
          assert (0 <= n) by (destruct RW as (? & ? & ? & _ & ? & _); auto).
          rewrite to_long_word by (auto; lia). unfold pick.
          destruct ((0 <=? z) && (z <? n)) eqn:B; cbn [bind as_int element agrees]; [|reflexivity].
          assert (RZ : row ks (fst q, snd q + z * Z.of_nat (size t)) 1 t) by (eapply row_pick; eauto; lia).
          rewrite (row_inside m _ _ SM RZ). auto.
        * rewrite IHi. reflexivity.
    - destruct G as (Ga & Gb & Ta & Tb). specialize (IHa Ga). specialize (IHb Gb). rewrite Ta in IHa. rewrite Tb in IHb.
      apply (number_agrees m _ _ SM) in IHa. apply (number_agrees m _ _ SM) in IHb.
      cbn [meaning emit typ cev].
      set (u := do y <- meaning op g m b; number m y) in *.
      rewrite <- (bind_assoc (meaning op g m a) (number m)).
      rewrite <- (bind_assoc (cev op g m (emit g a)) (as_int m)).
      destruct (do x <- meaning op g m a; number m x) as [x| | |]; try contradiction.
      + destruct IHa as (-> & W). cbn [bind]. rewrite <- !bind_assoc. fold u.
        destruct u as [y| | |]; try contradiction.
        * destruct IHb as (-> & W'). cbn. auto.
        * rewrite IHb. reflexivity.
      + rewrite IHa. reflexivity.
  Qed.

  Lemma fits_int z : word z -> fits ks TInt (VInt z). Proof. auto. Qed.

  Lemma exec_step m s : sound_mem g vars ks m -> good_stmt g vars s ->
    exec op g m s = step op g m s
    /\ match step op g m s with Ok m' => sound_mem g vars ks m' | Panic => True | _ => False end.
  Proof.
    intros SM G. destruct s as [a b|x a]; cbn [good_stmt exec step] in *.
    - destruct G as (Ga & Gb & T & S & V).
      pose proof (meaning_agrees m a SM Ga) as A. pose proof (meaning_agrees m b SM Gb) as B.
      rewrite <- T in B.
      assert (NA : forall z, meaning op g m a <> Ok (Num z)).
      { intros z E. destruct a as [|y|a i|]; try contradiction; [discriminate E|].
        cbn [meaning] in E. apply bind_Ok in E as (r & _ & E). apply bind_Ok in E as (v & _ & E).
        apply bind_Ok in E as (w & _ & E). destruct r as [|q]; try discriminate E.
        destruct (typ g a) as [|n t|t|t]; try discriminate E.
        - unfold pick in E. destruct (_ && _); discriminate E.
        - destruct (load m q) as [[]| | |]; try discriminate E. unfold pick in E. destruct (_ && _); discriminate E. }
      destruct (meaning op g m a) as [[z|p]| | |]; cbn [agrees] in A; try contradiction.
      + now destruct (NA z).
      + destruct A as (-> & R & ST). cbn [bind].
        destruct (meaning op g m b) as [[z|q]| | |]; cbn [agrees] in B; try contradiction.
        * destruct B as (-> & TI & W). cbn [bind rvalue content]. rewrite TI in R.
          destruct (row_store m p TInt (VInt z) SM R Logic.I W) as (m' & -> & SM'). auto.
        * destruct B as (-> & R' & _). cbn [bind content].
          destruct (row_load m q _ SM R' S) as (c & L & F).
          assert (RV : rvalue m (RLoc q (typ g a)) = load m q) by (destruct (typ g a); [reflexivity|contradiction S|reflexivity|reflexivity]).
          rewrite RV, L. cbn [bind].
          destruct (row_store m p _ c SM R S F) as (m' & -> & SM'). auto.
        * rewrite B. cbn [bind]. auto.
      + rewrite A. cbn [bind]. auto.
    - destruct G as (Ga & L & n & t & T & X).
      pose proof (meaning_agrees m a SM Ga) as A. rewrite T in A |- *.
      destruct (meaning op g m a) as [[z|p]| | |]; cbn [agrees] in A; try contradiction.
      + destruct A as (_ & H & _). discriminate.
      + destruct A as (-> & R & ST). cbn [bind]. cbn [sound_type] in ST. destruct ST as (N0 & N1 & ST).
        destruct (var_row m x SM L) as (RX & _). rewrite X in RX.
        destruct (row_store m (x, 0) _ (VSlice p (Z.of_nat n)) SM RX Logic.I) as (m' & -> & SM').
        { cbn [fits]. split; [now apply row_array|auto]. }
        auto.
      + rewrite A. cbn [bind]. auto.
  Qed.

  Lemma run_steps m l : sound_mem g vars ks m -> Forall (good_stmt g vars) l ->
    run op g m l = steps op g m l
    /\ match steps op g m l with Ok m' => sound_mem g vars ks m' | Panic => True | _ => False end.
  Proof.
    intros SM F. revert m SM. induction F as [|s l G F IH]; intros m SM; cbn [run steps]; auto.
    destruct (exec_step m s SM G) as (E & H). rewrite E.
    destruct (step op g m s) as [m'| | |]; try contradiction; cbn [bind]; auto.
  Qed.
End Mem.
