(** C33: deferred statements run exactly once, newest first, however a block is left *)
From Verif Require Import Common Defer_Model Defer_Spec Defer_Proofs.
Local Open Scope nat_scope.

(** The C statements generated for a function do, for every meaning of its actions,
    conditions and expressions, from every state and for every number of iterations,
    exactly what the source says: each block, however it is left - at its end, by break,
    continue or return - runs the deferred statements it has reached, newest first, each
    once, then those of the blocks around it that are left too, and only then does the
    jump, with the returned value computed before them.
    Partial: at most 1024 defers and 64 nested loops in the text; jumps that are the body of
    a guard or loop have braces (or nothing waits); array literals are returned as slices
    only where nothing waits. *)
Theorem C33_semantics_partial : forall body,
  counts body <= 1024 -> depths body + deferred_depths body <= 64 -> ok 0 None (Block body) ->
  exists code, emit_function body = Ok code
  /\ forall (St V : Type) act cond (val : nat -> St -> V * St) n s, texecs act cond val n code s = exec act cond val n (Block body) s.
Proof.
  intros body W D O.
  destruct (function_ok (St := unit) (V := unit) (fun _ s => s) (fun _ s => (true, s)) (fun _ s => (tt, s)) 0 body W D O) as (c & E & _).
  exists c. split; [exact E|]. intros St V act cond val n s.
  destruct (function_ok act cond val n body W D O) as (c2 & E2 & T). rewrite E in E2. injection E2 as <-. apply T.
Qed.
(** The shape users read it as: [defer d1; ...; defer dk; body] *)
Fixpoint defers (ds : list dstmt) (l : items) : items := match ds with [] => l | d :: ds => Defer d (defers ds l) end.
Theorem C33_lifo_partial : forall ds t,
  let body := defers ds (Then t Nil) in
  counts body <= 1024 -> depths body + deferred_depths body <= 64 -> ok (length ds) None t ->
  exists code, emit_function body = Ok code
  /\ forall (St V : Type) act cond (val : nat -> St -> V * St) n s,
     texecs act cond val n code s =
     match exec act cond val n t s with
     | Some (how, s) => run_all (map (dexec act cond n) (rev ds)) how s
     | None => None
     end.
Proof.
  intros ds t body W D O. destruct (C33_semantics_partial body W D) as (code & E & T).
  - unfold body. cbn [ok]. revert O. replace (length ds) with (length ds + 0) by lia. generalize 0. clear. induction ds as [|d ds IH]; intros k O; cbn [defers oks].
    + now split.
    + apply IH. cbn [length] in O. now replace (length ds + S k) with (S (length ds) + k) by lia.
  - exists code. split; [exact E|]. intros. rewrite T. unfold body. clear.
    change (exec act cond val n (Block (defers ds (Then t Nil))) s) with (execs act cond val n (defers ds (Then t Nil)) [] s).
    assert (G : forall fs, execs act cond val n (defers ds (Then t Nil)) fs s = match exec act cond val n t s with Some (how, s) => run_all (map (dexec act cond n) (rev ds) ++ fs) how s | None => None end).
    { induction ds as [|d ds IH]; intros fs.
      - cbn [defers rev map app]. rewrite execs_then. destruct (exec act cond val n t s) as [[[| | |v] s1]|]; reflexivity.
      - cbn [defers rev]. change (execs act cond val n (Defer d (defers ds (Then t Nil))) fs s) with (execs act cond val n (defers ds (Then t Nil)) (dexec act cond n d :: fs) s).
        rewrite IH, map_app, <- app_assoc. reflexivity. }
    rewrite G, app_nil_r. reflexivity.
Qed.
(** [{ defer 1; defer 2; while c7 { defer 3; if c8 { defer 4; break } if c9 { return e5 } 6 } 7 }] *)
Definition sample_if : stmt := IfThen 8 (Block (Defer (DPrim 4) (Then Break Nil))).
Definition sample_loop : stmt :=
  While 7 (Block (Defer (DPrim 3) (Then sample_if (Then (IfThen 9 (Block (Then (Return (Some 5)) Nil))) (Then (Prim 6) Nil))))).
Definition sample : items := Defer (DPrim 1) (Defer (DBlock (DDefer (DPrim 20) (DThen (DPrim 2) DNil))) (Then sample_loop (Then (Prim 7) Nil))).
Example C33_example :
  counts sample <= 1024 /\ depths sample + deferred_depths sample <= 64 /\ ok 0 None (Block sample)
  /\ exists code, emit_function sample = Ok code
     (* the state is the trace so far; condition 8 holds on the second turn, 9 never or at once *)
     /\ texecs (V := nat) (fun a s => a :: s) (fun c s => (match c with 7 => true | 8 => 3 <? length s | _ => false end, s)) (fun e s => (e, s)) 10 code []
        = Some (ONormal, rev [6; 3; 6; 3; 4; 3; 7; 2; 20; 1])
     /\ texecs (V := nat) (fun a s => a :: s) (fun c s => (match c with 8 => false | _ => true end, s)) (fun e s => (e, e :: s)) 10 code []
        = Some (OReturn (Some 5), rev [5; 3; 2; 20; 1]).
Proof.
  split; [cbn; lia|]. split; [cbn; lia|]. split; [cbn; repeat split; discriminate|]. eexists. split; [reflexivity|]. split; reflexivity.
Qed.
Print Assumptions C33_semantics_partial.
Print Assumptions C33_lifo_partial.

(** Refuted: [{ defer a; guard c else return; p }] returns whether c holds or not: with
    deferred statements waiting, a jump is generated as several C statements after an if
    without braces.  When c holds, neither p nor the deferred statement runs. *)
Definition bare_guard (a c p : nat) : items := Defer (DPrim a) (Then (IfThen c (Return None)) (Then (Prim p) Nil)).
Theorem C33_bare_jump_refuted : forall a c p, exists code,
  emit_function (bare_guard a c p) = Ok code
  /\ forall (St V : Type) act cond (val : nat -> St -> V * St) n s s1, cond c s = (false, s1) ->
     exec act cond val n (Block (bare_guard a c p)) s = Some (ONormal, act a (act p s1))
     /\ texecs act cond val n code s = Some (OReturn None, s1).
Proof.
  intros a c p. eexists. split; [reflexivity|]. intros St V act cond val n s s1 E. split; cbn; rewrite E; reflexivity.
Qed.
(** Refuted: deferred statements are not run when an array literal is returned as a slice. *)
Theorem C33_slice_return_refuted : forall a e, exists code,
  emit_function (Defer (DPrim a) (Then (ReturnSlice e) Nil)) = Ok code
  /\ forall (St V : Type) act cond (val : nat -> St -> V * St) n s v s1, val e s = (v, s1) ->
     exec act cond val n (Block (Defer (DPrim a) (Then (ReturnSlice e) Nil))) s = Some (OReturn (Some v), act a s1)
     /\ texecs act cond val n code s = Some (OReturn (Some v), s1).
Proof.
  intros a e. eexists. split; [reflexivity|]. intros St V act cond val n s v s1 E. split; cbn; rewrite E; reflexivity.
Qed.
(** Refuted: with 1024 deferred statements waiting, a further one is dropped without a
    message: the same text is generated as without it. *)
Theorem C33_overflow_refuted : forall ds d l, 1024 <= length ds -> emit_function (defers ds (Defer d l)) = emit_function (defers ds l).
Proof.
  intros ds d l L. unfold emit_function. cbn [emit]. do 2 f_equal.
  assert (G : forall own, (1024 <= length ds + length own) -> emits (defers ds (Defer d l)) own [] [] = emits (defers ds l) own [] []).
  { clear L. induction ds as [|x ds IH]; intros own L; cbn [defers].
    - cbn [emits]. unfold push. destruct (Nat.ltb_spec (length (@nil entry) + length own) MAX_DEFER) as [Q|Q]; [|reflexivity]. cbn [length plus] in *. unfold MAX_DEFER in Q. lia.
    - cbn [emits]. unfold push. destruct (Nat.ltb_spec (length (@nil entry) + length own) MAX_DEFER) as [Q|Q].
      + apply IH. cbn [length] in *. lia.
      + apply IH. unfold MAX_DEFER in Q. cbn [length plus] in *. lia. }
  apply G. lia.
Qed.
(** Refuted: the 65th loop inside loops makes the compiler write past its array. *)
Fixpoint nest (k : nat) : items := match k with O => Nil | S k => Then (Loop (nest k)) Nil end.
Theorem C33_loop_nesting_refuted : forall k, 64 < k -> emit_function (nest k) = UB.
Proof.
  intros k L. unfold emit_function. cbn [emit].
  assert (G : forall k bnds, 64 < k + length bnds -> length bnds <= 64 -> emits (nest k) [] [] bnds = UB).
  { clear. induction k as [|k IH]; intros bnds L1 L2; [cbn in L1; lia|]. cbn [nest emits emit app]. unfold enter_loop.
    destruct (Nat.ltb_spec (length bnds) MAX_LOOP_DEPTH) as [Q|Q]; [|reflexivity]. rewrite IH; [reflexivity| |]; unfold MAX_LOOP_DEPTH in Q; cbn [length]; lia. }
  rewrite G; [reflexivity| |]; cbn [length]; lia.
Qed.
Print Assumptions C33_bare_jump_refuted.
Print Assumptions C33_slice_return_refuted.
Print Assumptions C33_overflow_refuted.
Print Assumptions C33_loop_nesting_refuted.
