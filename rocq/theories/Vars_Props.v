(** C110: the life of variables. *)
From Verif Require Import Common Vars_Model Vars_Spec Vars_Proofs.
Local Open Scope Z_scope.

(** A local variable declared without a value is zero in all its parts.  Missing: pointers, strings, function types, vectors, opaque aliases. *)
Theorem C110_zero_partial : forall s t, zeroed t = true -> local_value s t None = Ok (zero t).
Proof. intros s t H. destruct t; try discriminate; reflexivity. Qed.
Print Assumptions C110_zero_partial.
Example C110_zero_used : zeroed (TStruct [TPtr; TArr TNum 2]) = true /\ zero (TStruct [TPtr; TArr TNum 2]) = VAgg [VNull; VAgg [VNum 0; VNum 0]]. Proof. split; reflexivity. Qed.

(** False of the other types: reading the variable is undefined; a void pointer without a value does not compile. *)
Theorem C110_zero_refuted : forall t, zeroed t = false ->
  (t = TVoidPtr /\ local_value false t None = Panic) \/ (t <> TVoidPtr /\ exists v, local_value false t None = Ok v /\ read v = UB).
Proof. intros t H. destruct t; try discriminate; [right| left|right|right|right|right]; cbn; split; eauto; discriminate. Qed.
Print Assumptions C110_zero_refuted.
Example C110_zero_refuted_used : zeroed TPtr = false /\ zeroed (TOpaque TNum) = false /\ zeroed TVoidPtr = false. Proof. splits; reflexivity. Qed.

(** A value that is written is the value of the variable; a global variable without one is zero, of every type, and so is a static one that compiles. *)
Theorem C110_value : forall s t v, local_value s t (Some v) = Ok v /\ global_value t (Some v) = v /\ global_value t None = zero t
  /\ (t <> TVoidPtr -> local_value true t None = Ok (zero t)).
Proof. intros. splits; try reflexivity. intros N. destruct t; try congruence; reflexivity. Qed.
Print Assumptions C110_value.
Example C110_value_used : global_value (TOpaque TPtr) None = VNull /\ local_value true TString None = Ok VNull. Proof. split; reflexivity. Qed.

(** A static variable of a type without drop is set once, before the first call; every later call finds in it what the call before left, whatever else the function declares and does. *)
Theorem C110_static_partial : forall l b d n st h st' h' tr, In d l -> dstatic d = true -> ddrop d = false -> well_named l -> keeps b -> get (dname d) st = None ->
  calls n l b st h = Ok (st', h', tr) ->
  (forall gi go, nth_error tr 0 = Some (gi, go) -> exists v, local_value true (dty d) (dinit d) = Ok v /\ get (dname d) gi = Some v)
  /\ forall k gi go gi' go', nth_error tr k = Some (gi, go) -> nth_error tr (S k) = Some (gi', go') -> get (dname d) gi' = get (dname d) go.
Proof.
  intros l b d n st h st' h' tr I S D W K.
  assert (A : forall n st h st' h' tr, calls n l b st h = Ok (st', h', tr) ->
    (forall gi go, nth_error tr 0 = Some (gi, go) -> exists v, local_value true (dty d) (dinit d) = Ok v /\ get (dname d) gi = Some (match get (dname d) st with Some w => w | None => v end))
    /\ forall k gi go gi' go', nth_error tr k = Some (gi, go) -> nth_error tr (k + 1) = Some (gi', go') -> get (dname d) gi' = get (dname d) go).
  { clear n st h st' h' tr. induction n as [|n IH]; intros st h st' h' tr H; cbn [calls] in H.
    - injection H as <- <- <-. split; [discriminate|intros []; discriminate].
    - apply bind_Ok in H as ([[[st1 h1] x] [gi go]] & C & H). apply bind_Ok in H as ([[st2 h2] gs] & H & E). injection E as <- <- <-.
      destruct (call_var _ _ _ _ _ _ _ _ _ _ C W K I) as (v & V & _ & B). rewrite S, D in *. cbn [negb andb] in *. destruct (B eq_refl) as (B1 & B2 & B3).
      destruct (IH _ _ _ _ _ H) as (P & Q). split.
      + intros a c E. injection E as <- <-. eauto.
      + intros [|k] a c a' c' E F; cbn [nth_error Nat.add] in *.
        * injection E as <- <-. destruct (P _ _ F) as (w & _ & G). rewrite G, B2. destruct (get (dname d) go); [reflexivity|congruence].
        * exact (Q _ _ _ _ _ E F). }
  intros N H. destruct (A _ _ _ _ _ _ H) as (P & Q). split.
  - intros gi go E. destruct (P _ _ E) as (v & V & G). rewrite N in G. eauto.
  - intros k gi go gi' go' E F. apply (Q k gi go gi' go' E). now rewrite Nat.add_1_r.
Qed.
Print Assumptions C110_static_partial.
(** a counter beside another variable *)
Definition counter : list decl := [D (bs "t") false false false TPtr None; D (bs "n") true false false TNum (Some (VNum 5))].
Definition count : body := fun g h => (put (bs "n") (match get (bs "n") g with Some (VNum z) => VNum (z + 1) | _ => VNull end) g, h, Return VNull).
Example C110_static_used : well_named counter /\ keeps count
  /\ exists st tr, calls 3 counter count [] [] = Ok (st, [], tr) /\ map (fun p => get (bs "n") (snd p)) tr = [Some (VNum 6); Some (VNum 7); Some (VNum 8)].
Proof.
  splits.
  - repeat constructor; cbn; intuition discriminate.
  - intros g h x G. cbn [count fst]. unfold count. cbn [fst]. set (v := match get (bs "n") g with Some (VNum z) => _ | _ => _ end). clearbody v. clear h.
    induction g as [|[y w] g IH]; cbn [put get] in *; [exact G|]. destruct (beq_bytes (bs "n") y); cbn [get]; destruct (beq_bytes x y); auto; discriminate.
  - eexists _, _. split; vm_compute; reflexivity.
Qed.

(** False of a static variable whose type has drop: every call starts again with the initial value.  The same is true, as it should be, of a variable that is not static. *)
Theorem C110_static_refuted : forall l b d n st h st' h' tr, In d l -> (dstatic d = true -> ddrop d = true) -> well_named l -> keeps b ->
  calls n l b st h = Ok (st', h', tr) ->
  forall k gi go, nth_error tr k = Some (gi, go) -> exists v, local_value false (dty d) (dinit d) = Ok v /\ get (dname d) gi = Some v.
Proof.
  intros l b d n st h st' h' tr I S W K. assert (Z : dstatic d && negb (ddrop d) = false) by (destruct (dstatic d); [now rewrite S|reflexivity]).
  revert st h st' h' tr. induction n as [|n IH]; intros st h st' h' tr H k gi go E; cbn [calls] in H.
  - injection H as <- <- <-. destruct k; discriminate.
  - apply bind_Ok in H as ([[[st1 h1] x] [a c]] & C & H). apply bind_Ok in H as ([[st2 h2] gs] & H & F). injection F as <- <- <-.
    destruct k as [|k]; cbn [nth_error] in E; [|exact (IH _ _ _ _ _ H k gi go E)]. injection E as <- <-.
    destruct (call_var _ _ _ _ _ _ _ _ _ _ C W K I) as (v & V & B & _). rewrite Z in *. eauto.
Qed.
Print Assumptions C110_static_refuted.
Example C110_static_refuted_used : let l := [D (bs "n") true false true (TStruct [TNum]) None] in
  exists st tr, calls 2 l (fun g h => (put (bs "n") (VAgg [VNum 9]) g, h, Fall)) [] [] = Ok (st, [], tr)
  /\ map (fun p => get (bs "n") (fst p)) tr = [Some (VAgg [VNum 0]); Some (VAgg [VNum 0])].
Proof. intros l. eexists _, _. split; vm_compute; reflexivity. Qed.

(** On every way out of the scope the blocks that the autofree variables hold are freed, each once, and nothing else.  Missing: two of them holding one block; types with drop. *)
Theorem C110_autofree_partial : forall l cs (b : body) st (h : heap) g (h1 : heap) x bs, emit_all l = Ok cs -> parsed l -> (forall d, In d l -> dauto d = true -> ddrop d = false) ->
  b (snd (enter cs st)) h = (g, h1, x) -> held l g = Some bs -> NoDup bs -> (forall k, In k bs -> nth_error h1 k = Some true) ->
  exists st' h2 gi, call l b st h = Ok (st', h2, x, (gi, g)) /\ forall k, nth_error h2 k = if existsb (Nat.eqb k) bs then Some false else nth_error h1 k.
Proof.
  intros l cs b st h g h1 x bs E P D B H N L. unfold call. rewrite E. cbn [bind]. destruct (enter cs st) as [s gi]. cbn [snd] in B. rewrite B.
  destruct (free_all bs h1 N L) as (h2 & F & _ & G). assert (C : cleanup cs g h1 = Ok h2) by (rewrite (emit_cleanup l cs g E D P h1), H; exact F). rewrite C. cbn [bind]. exists (leave cs g s), h2, gi. auto.
Qed.
Print Assumptions C110_autofree_partial.
Definition two : list decl := [D (bs "p") false true false TPtr (Some VNull); D (bs "q") false true false TPtr (Some VNull)].
Example C110_autofree_used :
  call two (fun g h => (put (bs "q") (VPtr 1) (put (bs "p") (VPtr 0) g), [true; true; true], Break)) [] []
  = Ok ([], [false; false; true], Break, ([(bs "p", VNull); (bs "q", VNull)], [(bs "p", VPtr 0); (bs "q", VPtr 1)])).
Proof. vm_compute. reflexivity. Qed.

(** False when two autofree variables hold one block: it is freed twice. *)
Theorem C110_alias_refuted : forall l cs (b : body) st (h : heap) g (h1 : heap) x bs, emit_all l = Ok cs -> parsed l -> (forall d, In d l -> dauto d = true -> ddrop d = false) ->
  b (snd (enter cs st)) h = (g, h1, x) -> held l g = Some bs -> ~ NoDup bs -> call l b st h = UB.
Proof.
  intros l cs b st h g h1 x bs E P D B H N. unfold call. rewrite E. cbn [bind]. destruct (enter cs st) as [s gi]. cbn [snd] in B. rewrite B.
  assert (C : cleanup cs g h1 = UB) by (rewrite (emit_cleanup l cs g E D P h1), H; exact (free_twice bs h1 N)). rewrite C. reflexivity.
Qed.
Print Assumptions C110_alias_refuted.
Example C110_alias_used : call two (fun g h => (put (bs "q") (VPtr 0) (put (bs "p") (VPtr 0) g), [true], Fall)) [] [] = UB. Proof. vm_compute. reflexivity. Qed.

(** False of an autofree variable of a type with drop: the drop flag is freed in its place, as long as it is the number it was made. *)
Theorem C110_flag_refuted : forall l (b : body) st h d, In d l -> dauto d = true -> ddrop d = true -> dstatic d = false -> well_named l ->
  (forall g h z, get (flag_name (dname d)) g = Some (VNum z) -> exists z', get (flag_name (dname d)) (fst (fst (b g h))) = Some (VNum z')) ->
  forall r, call l b st h <> Ok r.
Proof.
  intros l b st h d I A D S W K r H. unfold call in H. apply bind_Ok in H as (cs & E & H). destruct (emit_all_in _ _ _ E I) as (v & _ & _ & J). specialize (J D).
  assert (ND : NoDup (map cname cs)) by (rewrite (emit_all_names _ _ E); exact W).
  destruct (enter_get cs st _ ND J) as (G & _). cbn [cname] in G. unfold first_value in G. cbn [cstatic cval] in G. rewrite S in G.
  destruct (enter cs st) as [s g]. cbn [snd] in G. destruct (K g h 1 G) as (z & Z). destruct (b g h) as [[g' hb] xb]. cbn [fst] in Z.
  apply bind_Ok in H as (h2 & C & _). clear -J Z C A S. revert h2 C. induction cs as [|c cs IH]; intros h2 C; [contradiction|]. cbn [cleanup] in C. apply bind_Ok in C as (h3 & C & F).
  destruct J as [->|J]; [|exact (IH J _ C)]. cbn [cauto cstatic cname] in F. rewrite A, S, Z in F. discriminate.
Qed.
Print Assumptions C110_flag_refuted.
Example C110_flag_used : let l := [D (bs "n") false true true (TStruct [TPtr]) None] in well_named l /\ call l (fun g h => (g, h, Fall)) [] [] = UB.
Proof. split; [|vm_compute; reflexivity]. repeat constructor; cbn; intuition discriminate. Qed.

(** A function that gives back the block of an autofree variable gives back a freed one. *)
Theorem C110_return_refuted : forall l b st h st' h' v gi go d k, call l b st h = Ok (st', h', Return v, (gi, go)) -> parsed l ->
  (forall d, In d l -> dauto d = true -> ddrop d = false) -> In d l -> dauto d = true -> get (dname d) go = Some (VPtr k) -> v = VPtr k ->
  nth_error h' k = Some false.
Proof.
  intros l b st h st' h' v gi go d k H P D I A G V. unfold call in H. apply bind_Ok in H as (cs & E & H). destruct (enter cs st) as [s g]. destruct (b g h) as [[g' hb] xb].
  apply bind_Ok in H as (h2 & C & H). injection H as H1 H2 H3 H4 H5; subst st' h' xb gi g'. destruct (emit_all_in _ _ _ E I) as (w & _ & J & _). rewrite (D d I A), A, (P d I A) in J. cbn [negb andb] in J.
  assert (M : forall (h h2 : heap) w i, free_ h w = Ok h2 -> nth_error h i = Some false -> nth_error h2 i = Some false).
  { intros h0 h3 [] i F X; try discriminate; cbn [free_] in F. - now injection F as <-.
    - destruct (nth_error h0 b0) as [[]|] eqn:Q; try discriminate. injection F as <-. rewrite nth_error_upd_other; [exact X|]. congruence. }
  clear -J G C M. revert h2 C. induction cs as [|c cs IH]; intros h2 C; [contradiction|]. cbn [cleanup] in C. apply bind_Ok in C as (h3 & C & F). destruct J as [->|J].
  - cbn [cauto cstatic cname negb andb] in F. rewrite G in F. cbn [free_] in F. destruct (nth_error h3 k) as [[]|] eqn:Q; try discriminate. injection F as <-. apply nth_error_upd_same. apply nth_error_Some. congruence.
  - specialize (IH J _ C). destruct (cauto c && negb (cstatic c)); [|now injection F as <-]. destruct (get (cname c) go); [|discriminate]. exact (M _ _ _ _ F IH).
Qed.
Print Assumptions C110_return_refuted.
Example C110_return_used : exists st gi go, call two (fun g h => (put (bs "p") (VPtr 0) g, [true], Return (VPtr 0))) [] [] = Ok (st, [false], Return (VPtr 0), (gi, go)).
Proof. eexists _, _, _. vm_compute. reflexivity. Qed.

(** What the theorems call the zero of a type is zero in every part and has the shape of the type. *)
Theorem C110_zero_value : forall t, all_zero t (zero t).
Proof.
  fix IH 1. intros [| | |fs|t n| | | | | |n|t]; cbn [zero]; try (constructor; cbn [In]; now auto).
  - constructor. induction fs as [|f fs IHf]; cbn [map]; constructor; [apply IH|exact IHf].
  - constructor; [apply repeat_length|]. specialize (IH t). induction n as [|n IHn]; cbn [repeat]; constructor; assumption.
  - constructor; [apply repeat_length|]. induction n as [|n IHn]; cbn [repeat]; constructor; auto.
Qed.
Print Assumptions C110_zero_value.
Example C110_zero_value_used : all_zero (TArr (TStruct [TPtr; TNum]) 1) (VAgg [VAgg [VNull; VNum 0]]). Proof. exact (C110_zero_value (TArr (TStruct [TPtr; TNum]) 1)). Qed.
