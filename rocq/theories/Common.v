(** Shared vocabulary: outcomes, buffers with explicit bounds, byte strings. *)
From Coq Require Export List Arith NArith ZArith Bool Lia.
From Coq Require Export ZifyBool ZifyNat ZifyN.
From Coq Require String Ascii.
Export ListNotations.
Export String.StringSyntax Ascii.AsciiSyntax.
Delimit Scope string_scope with string.
Delimit Scope char_scope with char.
Open Scope nat_scope.
Ltac Zify.zify_post_hook ::= Z.div_mod_to_equations.

(** split conjunctions only *)
Ltac splits := repeat match goal with |- _ /\ _ => split end.

(** Outcome of running a piece of code.
    [Ok]    it returned;
    [Panic] the library reported an error and called exit (intended failure);
    [UB]    undefined behaviour: out-of-bounds access, read of an uninitialised
            slot, null dereference, signed overflow ...;
    [Fuel]  the model's loop bound was used up (the loop may still be running). *)
Inductive res (A : Type) : Type :=
| Ok (a : A)
| Panic
| UB
| Fuel.
Arguments Ok {A} _.
Arguments Panic {A}.
Arguments UB {A}.
Arguments Fuel {A}.

Definition bind {A B} (r : res A) (f : A -> res B) : res B :=
  match r with
  | Ok a => f a
  | Panic => Panic
  | UB => UB
  | Fuel => Fuel
  end.

Notation "'do' x <- e ; f" := (bind e (fun x => f))
  (at level 200, x name, e at level 100, f at level 200, right associativity).
Notation "'do' ' p <- e ; f" := (bind e (fun p => f))
  (at level 200, p strict pattern, e at level 100, f at level 200, right associativity).

Lemma bind_Ok {A B} (r : res A) (f : A -> res B) b :
  bind r f = Ok b -> exists a, r = Ok a /\ f a = Ok b.
Proof. destruct r; cbn; intros; try discriminate; eauto. Qed.

(** Heap buffers: one entry per allocated element, [None] = not initialised. *)
Definition buf (A : Type) := list (option A).

Section Buf.
  Context {A : Type}.

  Definition bget (b : buf A) (i : nat) : res A :=
    match nth_error b i with
    | Some (Some a) => Ok a
    | _ => UB
    end.

  Fixpoint upd {B} (l : list B) (i : nat) (x : B) : list B :=
    match l, i with
    | [], _ => []
    | _ :: t, 0 => x :: t
    | h :: t, S i' => h :: upd t i' x
    end.

  Definition bset (b : buf A) (i : nat) (a : A) : res (buf A) :=
    if i <? length b then Ok (upd b i (Some a)) else UB.

  (** malloc of [n] elements. *)
  Definition bnew (n : nat) : buf A := repeat None n.

  (** realloc to [n] elements: keeps the common prefix. *)
  Definition brealloc (b : buf A) (n : nat) : buf A :=
    firstn n b ++ repeat None (n - length b).

  (** memmove/memcpy of [n] elements from [src+so] to [dst+d]. *)
  Definition bcopy (src : buf A) (so : nat) (dst : buf A) (d n : nat) : res (buf A) :=
    if (so + n <=? length src) && (d + n <=? length dst)
    then Ok (firstn d dst ++ firstn n (skipn so src) ++ skipn (d + n) dst)
    else UB.

  Lemma length_upd {B} (l : list B) i x : length (upd l i x) = length l.
  Proof. revert i; induction l; destruct i; cbn; auto. Qed.

  Lemma upd_app_r {B} (l1 l2 : list B) i x :
    length l1 <= i -> upd (l1 ++ l2) i x = l1 ++ upd l2 (i - length l1) x.
  Proof.
    revert i; induction l1; intros i H; cbn in *.
    - now rewrite Nat.sub_0_r.
    - destruct i; [lia|]. cbn. now rewrite IHl1 by lia.
  Qed.

  Lemma upd_app_l {B} (l1 l2 : list B) i x :
    i < length l1 -> upd (l1 ++ l2) i x = upd l1 i x ++ l2.
  Proof.
    revert i; induction l1; intros i H; cbn in *; [lia|].
    destruct i; cbn; auto. now rewrite IHl1 by lia.
  Qed.

  Lemma nth_error_upd {B} (l : list B) i j x :
    nth_error (upd l i x) j =
    if (i =? j) && (i <? length l) then Some x else nth_error l j.
  Proof.
    revert i j; induction l; intros i j; cbn.
    - destruct j; rewrite andb_false_r; auto.
    - destruct i, j; cbn; auto.
      rewrite IHl. reflexivity.
  Qed.

  Lemma upd_middle {B} (l1 l2 : list B) y x :
    upd (l1 ++ y :: l2) (length l1) x = l1 ++ x :: l2.
  Proof. rewrite upd_app_r by lia. now rewrite Nat.sub_diag. Qed.

  Lemma upd_middle' {B} (l1 l2 : list B) i y x :
    length l1 = i -> upd (l1 ++ y :: l2) i x = l1 ++ x :: l2.
  Proof. intros <-. apply upd_middle. Qed.

  Lemma upd_map {B C} (f : B -> C) (l : list B) i x :
    upd (map f l) i (f x) = map f (upd l i x).
  Proof. revert i; induction l; destruct i; cbn; auto; now rewrite IHl. Qed.

  Lemma length_brealloc (b : buf A) n : length (brealloc b n) = n.
  Proof. unfold brealloc. rewrite app_length, firstn_length, repeat_length. lia. Qed.

  Lemma bget_lt (b : buf A) i a : bget b i = Ok a -> i < length b.
  Proof.
    unfold bget. destruct (nth_error b i) eqn:E; try discriminate.
    intros _. apply nth_error_Some. congruence.
  Qed.
End Buf.

(** Lists *)
Lemma nth_error_nil' {A} i : nth_error (@nil A) i = None.
Proof. destruct i; auto. Qed.

Lemma nth_error_firstn {A} (l : list A) n i :
  nth_error (firstn n l) i = if i <? n then nth_error l i else None.
Proof.
  revert l i; induction n; intros l i.
  - cbn [firstn]. rewrite nth_error_nil'. destruct i; auto.
  - destruct l; cbn [firstn].
    + rewrite nth_error_nil'. now destruct (i <? S n).
    + destruct i; cbn; auto. rewrite IHn. reflexivity.
Qed.

Lemma nth_error_skipn {A} (l : list A) n i :
  nth_error (skipn n l) i = nth_error l (n + i).
Proof.
  revert l; induction n; intros l; cbn; auto.
  destruct l; cbn; auto. destruct i; auto.
Qed.

Lemma list_ext {A} (l1 l2 : list A) :
  (forall i, nth_error l1 i = nth_error l2 i) -> l1 = l2.
Proof.
  revert l2; induction l1; intros l2 H.
  - destruct l2; auto. specialize (H 0); discriminate.
  - destruct l2. { specialize (H 0); discriminate. }
    f_equal. { specialize (H 0); cbn in H; congruence. }
    apply IHl1. intros i. apply (H (S i)).
Qed.

Lemma skipn_skipn' {A} (n m : nat) (l : list A) : skipn n (skipn m l) = skipn (m + n) l.
Proof.
  revert l; induction m; intros l; cbn; auto.
  destruct l; cbn; auto. now rewrite skipn_nil.
Qed.

Lemma firstn_all' {A} (l : list A) n : length l <= n -> firstn n l = l.
Proof. apply firstn_all2. Qed.

Lemma nth_error_None_ge {A} (l : list A) i : length l <= i -> nth_error l i = None.
Proof. apply nth_error_None. Qed.

Lemma nth_error_lt {A} (l : list A) i : i < length l -> exists x, nth_error l i = Some x.
Proof.
  intros H. destruct (nth_error l i) eqn:E; eauto.
  apply nth_error_None in E. lia.
Qed.

Lemma nth_error_repeat' {A} (x : A) n i :
  nth_error (repeat x n) i = if i <? n then Some x else None.
Proof.
  revert i; induction n; intros i; cbn.
  - destruct i; auto.
  - destruct i; cbn; auto. rewrite IHn. reflexivity.
Qed.

Lemma nth_error_app_if {A} (l1 l2 : list A) i :
  nth_error (l1 ++ l2) i =
  if i <? length l1 then nth_error l1 i else nth_error l2 (i - length l1).
Proof.
  destruct (Nat.ltb_spec i (length l1)).
  - now apply nth_error_app1.
  - now apply nth_error_app2.
Qed.

(** Byte strings: lists of byte values. *)
Definition bytes := list N.
Definition is_byte (b : N) : Prop := (b < 256)%N.
Definition is_bytes (l : bytes) : Prop := Forall is_byte l.

(** A C string held in memory: the bytes up to the first NUL. *)
Fixpoint cstr (l : bytes) : bytes :=
  match l with
  | [] => []
  | b :: t => if (b =? 0)%N then [] else b :: cstr t
  end.

(** Literal text, for readability of models and examples. *)
Fixpoint bs (s : String.string) : bytes :=
  match s with
  | String.EmptyString => []
  | String.String c t => Ascii.N_of_ascii c :: bs t
  end.
Definition ch (c : Ascii.ascii) : N := Ascii.N_of_ascii c.

Global Arguments bs _%string.
Global Arguments ch _%char.

Fixpoint beq_bytes (a b : bytes) : bool :=
  match a, b with
  | [], [] => true
  | x :: a', y :: b' => (x =? y)%N && beq_bytes a' b'
  | _, _ => false
  end.

Lemma beq_bytes_spec a b : reflect (a = b) (beq_bytes a b).
Proof.
  revert b; induction a; destruct b; cbn; try (constructor; congruence).
  destruct (N.eqb_spec a n); cbn.
  - destruct (IHa b); constructor; congruence.
  - constructor; congruence.
Qed.

Lemma beq_bytes_true a b : beq_bytes a b = true -> a = b.
Proof. now destruct (beq_bytes_spec a b). Qed.

Lemma beq_bytes_refl a : beq_bytes a a = true.
Proof. destruct (beq_bytes_spec a a); congruence. Qed.

Fixpoint is_prefix (p l : bytes) : bool :=
  match p, l with
  | [], _ => true
  | x :: p', y :: l' => (x =? y)%N && is_prefix p' l'
  | _, _ => false
  end.

Lemma is_prefix_spec p l : is_prefix p l = true <-> exists r, l = p ++ r.
Proof.
  revert l; induction p; intros l; cbn.
  - split; eauto.
  - destruct l; [split; [discriminate|intros [r H]; discriminate]|].
    rewrite andb_true_iff, N.eqb_eq, IHp. split.
    + intros [-> [r ->]]; eauto.
    + intros [r H]; inversion H; subst; eauto.
Qed.

Global Arguments Nat.ltb _ _ : simpl never.
Global Arguments N.add _ _ : simpl never.
Global Arguments N.sub _ _ : simpl never.
Global Arguments N.mul _ _ : simpl never.
Global Arguments N.pow _ _ : simpl never.
Global Arguments N.modulo _ _ : simpl never.
Global Arguments N.div _ _ : simpl never.
Global Arguments N.eqb _ _ : simpl never.
Global Arguments N.ltb _ _ : simpl never.
Global Arguments N.leb _ _ : simpl never.
