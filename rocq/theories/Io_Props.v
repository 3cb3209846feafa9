(** * C88: formatted text and numbers as text *)
From Verif Require Import Common Io_Model Io_Spec Io_Proofs.
Local Open Scope Z_scope.

(** itos and utos write the numeral of the number: its value is the number, it is written the
    usual way, and it fits the 32-byte buffer. *)
Theorem C88_itos n : int n -> value (dec_int n) = n /\ numeral (dec_int n) /\ (length (dec_int n) < 32)%nat.
Proof. intros H. destruct (dec_int_ok n H) as (V & N & L & _). split; auto. split; auto. lia. Qed.
Print Assumptions C88_itos.
Theorem C88_utos n : uint n -> value (dec_nat n) = n /\ numeral (dec_nat n) /\ (length (dec_nat n) < 32)%nat.
Proof. intros H. destruct (dec_nat_ok n H) as (_ & V & N & L). split; auto. split; auto. lia. Qed.
Print Assumptions C88_utos.
Example C88_itos_applies : int (-2147483648) /\ dec_int (-2147483648) = bs "-2147483648" /\ uint 4294967295 /\ dec_nat 4294967295 = bs "4294967295" /\ dec_int 0 = bs "0".
Proof. unfold int, uint. split; [lia|]. split; [reflexivity|]. split; [lia|]. split; reflexivity. Qed.

(** After any history, a call returns a string that reads as what was asked for, up to 1023
    bytes, and goes on reading so, whatever is called later: for ever when the string is
    allocated (format_new, itos_new), until the next call of the same function otherwise.
    Only format_new and itos_new can return null, and only when there is no memory. *)
Theorem C88_reads_partial l1 o l2 :
  Forall good l1 -> good o -> Forall good l2 ->
  (forall w o', shared o = Some w -> In o' l2 -> shared o' <> Some w) ->
  exists st1 st2 p st3, run init l1 = Ok st1 /\ step st1 o = Ok (st2, p) /\ run st2 l2 = Ok st3 /\
    (p <> PNull -> read st3 p = Some (firstn 1023 (asked o))) /\
    (p = PNull -> exists t, o = FormatNew t None \/ exists n, o = ItosNew n None).
Proof.
  intros G1 G G2 N. destruct (lasting l1 o l2 G1 G G2 N) as (st1 & st2 & p & st3 & E1 & E2 & E3 & R & Nl).
  exists st1, st2, p, st3. split; auto. split; auto. split; auto. split; auto. intros NP. rewrite (R NP). f_equal.
  destruct o; cbn [given asked good] in *; auto; symmetry; apply firstn_all2.
  - destruct (dec_int_ok n G) as (_ & _ & L & _). lia.
  - destruct G as [G _]. destruct (dec_int_ok n G) as (_ & _ & L & _). lia.
  - destruct (dec_nat_ok n G) as (_ & _ & _ & L). lia.
Qed.
Print Assumptions C88_reads_partial.
Example C88_reads_applies :
  let l1 := [Itos 7; Format (bs "x = 1")] in let o := Itos (-42) in
  let l2 := [Format (bs "y = 2"); ItosNew 9 (Some (repeat 1%N 32)); Utos 3] in
  Forall good l1 /\ good o /\ Forall good l2 /\ (forall w o', shared o = Some w -> In o' l2 -> shared o' <> Some w) /\
  (do st1 <- run init l1; do '(st2, p) <- step st1 o; do st3 <- run st2 l2; Ok (read st3 p)) = Ok (Some (bs "-42")).
Proof.
  assert (T : forall t, forallb (fun c => negb (c =? 0)%N) t = true -> text t).
  { intros t E X. rewrite forallb_forall in E. apply E in X. discriminate. }
  cbn zeta. split; [|split; [|split; [|split]]].
  - constructor; [unfold good, int; lia|]. constructor; [now apply T|constructor].
  - unfold good, int. lia.
  - constructor; [now apply T|]. constructor; [split; [unfold int; lia|intros b X; injection X as <-; reflexivity]|].
    constructor; [unfold good, uint; lia|constructor].
  - intros w o' X I. injection X as <-. destruct I as [<-|[<-|[<-|[]]]]; discriminate.
  - reflexivity.
Qed.

(** A longer text is cut, and nothing tells *)
Theorem C88_truncated_refuted t : text t -> (1024 <= length t)%nat ->
  exists st p, step init (Format t) = Ok (st, p) /\ read st p = Some (firstn 1023 t) /\ firstn 1023 t <> t.
Proof.
  intros T L. destruct (step_ok init (Format t) wf_init T) as (st & p & E & _ & R & Nl & _).
  exists st, p. split; auto. split.
  - destruct R as [R|R]; [|exact R]. destruct (Nl R) as (u & [X|[n X]]); discriminate.
  - intros X. apply (f_equal (@length N)) in X. rewrite firstn_length in X. revert X L. generalize (length t). intros n X L.
    assert (1023 < 1024)%nat by (apply Nat.ltb_lt; reflexivity). lia.
Qed.
Print Assumptions C88_truncated_refuted.
(** Two results of itos (format, utos) held at once are the same string *)
Theorem C88_shared_refuted a b : int a -> int b ->
  exists st1 p st2 q, step init (Itos a) = Ok (st1, p) /\ step st1 (Itos b) = Ok (st2, q) /\
    read st2 p = Some (dec_int b) /\ read st2 q = Some (dec_int b).
Proof.
  intros Ha Hb. destruct (step_ok init (Itos a) wf_init Ha) as (st1 & p & E1 & W1 & _ & _ & S1 & _).
  destruct (step_ok st1 (Itos b) W1 Hb) as (st2 & q & E2 & _ & R & Nl & S2 & _).
  exists st1, p, st2, q. split; auto. split; auto. rewrite (S1 BItos eq_refl), (S2 BItos eq_refl) in *.
  destruct R as [R|R]; [discriminate|]. auto.
Qed.
Print Assumptions C88_shared_refuted.

(** format_into writes within the given size, ends the string, and returns the length of the
    whole text: it was cut exactly when that is not below the size. *)
Theorem C88_into buf size t : (0 < size <= length buf)%nat -> text t ->
  exists b, format_into buf size t = Ok (b, Z.of_nat (length t)) /\ length b = length buf /\ skipn size b = skipn size buf /\
    cstr b = firstn (size - 1) t /\ (cstr b = t <-> Z.of_nat (length t) < Z.of_nat size).
Proof.
  intros L T. destruct (into buf size t ltac:(lia)) as (b & E & Lb & Sk & _ & C).
  exists b. split; auto. split; auto. split; auto. rewrite C by (auto; lia). split; auto. split.
  - intros X. apply (f_equal (@length N)) in X. rewrite firstn_length in X. lia.
  - intros X. apply firstn_all2. lia.
Qed.
Print Assumptions C88_into.
Example C88_into_applies : format_into (repeat 7%N 6) 4 (bs "hello") = Ok (bs "hel" ++ [0%N; 7%N; 7%N], 5).
Proof. reflexivity. Qed.

(** println writes the text and a newline and returns the number of bytes written *)
Theorem C88_println out t : exists added n, println out false t = (out ++ added, n) /\ added = t ++ [10%N] /\ n = Z.of_nat (length added).
Proof.
  exists (t ++ [10%N]), (Z.of_nat (length t) + 1). cbn. rewrite app_assoc. split; auto. split; auto. rewrite app_length. cbn. lia.
Qed.
Print Assumptions C88_println.
(** but when the stream refuses the text it reports no error *)
Theorem C88_println_error_refuted out t : snd (println out true t) = 0 /\ snd (print out true t) = -1.
Proof. split; reflexivity. Qed.
