(** C34: the spell-check distance is the edit distance.  C35: suggestions are nearest. *)
From Verif Require Import Common Lev_Model Lev_Spec Lev_Proofs.
Local Open Scope nat_scope.

(** The function always answers: with the edit distance when the lengths differ by at
    most 3, and otherwise with 999 for strings that are more than 3 edits apart *)
Theorem C34_distance s1 s2 :
  exists d, levenshtein s1 s2 = Ok d /\
    (length s1 <= length s2 + 3 -> length s2 <= length s1 + 3 -> distance s1 s2 d) /\
    (length s1 > length s2 + 3 \/ length s2 > length s1 + 3 -> d = 999 /\ forall n, edits n s1 s2 -> 3 < n).
Proof.
  destruct (Nat.le_gt_cases ((length s1 - length s2) + (length s2 - length s1)) 3) as [L|L].
  - destruct (levenshtein_ok s1 s2 L) as (d & E & Q). exists d. splits; auto. lia.
  - exists 999. unfold levenshtein. destruct (Nat.leb_spec ((length s1 - length s2) + (length s2 - length s1)) 3); [lia|].
    splits; auto; intros; [lia|]. split; [reflexivity|]. intros n E. apply edits_length in E. lia.
Qed.
Example C34_case : levenshtein (bs "kitten") (bs "sitting") = Ok 3 /\ levenshtein (bs "pritnln") (bs "println") = Ok 2
  /\ distance (bs "ab") (bs "b") 1.
Proof.
  splits; [vm_compute; reflexivity..|]. split.
  - eapply edits_S; [apply (delete [] 97%N [98%N])|constructor].
  - intros [|n] E; [inversion E|lia].
Qed.

(** A suggestion is a visible symbol within 3 edits, no visible symbol is closer, and one
    is made whenever some visible symbol is within 3 edits *)
Theorem C35_nearest scopes name :
  exists r, find_similar_symbol scopes name = Ok r /\
  match r with
  | Some b => exists d, d <= 3 /\ distance name b d /\ In b (concat scopes) /\
      forall s n, In s (concat scopes) -> edits n name s -> d <= n
  | None => forall s n, In s (concat scopes) -> edits n name s -> 3 < n
  end.
Proof.
  destruct (scan_scopes_ok name scopes [] (None, 999)) as ([o d] & E & B).
  { cbn. split; [reflexivity|]. intros s n []. }
  cbn [app] in B. unfold find_similar_symbol. rewrite E. cbn [bind fst]. exists o. split; [reflexivity|].
  destruct o as [b|]; cbn in B; [|apply B]. destruct B as (B1 & B2 & B3 & B4). now exists d.
Qed.
Example C35_case :
  find_similar_symbol [[bs "count"; bs "total"]; [bs "counter"; bs "cont"]] (bs "coutn") = Ok (Some (bs "count")) /\
  find_similar_symbol [[bs "alpha"]; [bs "beta"]] (bs "gamma_ray") = Ok None.
Proof. split; vm_compute; reflexivity. Qed.

Print Assumptions C34_distance.
Print Assumptions C35_nearest.
