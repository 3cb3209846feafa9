(** Texts and numerals. *)
From Verif Require Import Common Io_Model.
Local Open Scope Z_scope.

(** The value of a decimal numeral *)
Definition value (s : bytes) : Z :=
  match s with
  | 45%N :: ds => - fold_left (fun a d => 10 * a + (Z.of_N d - 48)) ds 0
  | ds => fold_left (fun a d => 10 * a + (Z.of_N d - 48)) ds 0
  end.
Definition digits (s : bytes) : Prop := Forall (fun d => (48 <= d <= 57)%N) s.
(** a numeral as people write it: no leading zero, no minus zero *)
Definition numeral (s : bytes) : Prop :=
  s = bs "0" \/ exists d ds, (49 <= d <= 57)%N /\ digits ds /\ (s = d :: ds \/ s = 45%N :: d :: ds).

Definition int (n : Z) : Prop := - 2147483648 <= n <= 2147483647.
Definition uint (n : Z) : Prop := 0 <= n <= 4294967295.
Definition text (t : bytes) : Prop := ~ In 0%N t.
(** what a call is asked for, and what it can give at most *)
Definition asked (o : op) : bytes :=
  match o with Format t | FormatNew t _ => t | Itos n | ItosNew n _ => dec_int n | Utos n => dec_nat n end.
Definition given (o : op) : bytes :=
  match o with Format t | FormatNew t _ => firstn 1023 t | _ => asked o end.
(** the buffer a call uses, when it is not a fresh one *)
Definition shared (o : op) : option which :=
  match o with Format _ => Some BFormat | Itos _ => Some BItos | Utos _ => Some BUtos | _ => None end.
Definition good (o : op) : Prop :=
  match o with
  | Format t => text t
  | FormatNew t g => text t /\ forall b, g = Some b -> length b = 1024%nat
  | Itos n => int n
  | ItosNew n g => int n /\ forall b, g = Some b -> length b = 32%nat
  | Utos n => uint n
  end.
