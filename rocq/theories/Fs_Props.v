(** Property C63: files. *)
From Verif Require Import Common Vec_Model Vec_Proofs Vec_Props String_Model String_Spec String_Proofs String_Props Url_Proofs
  Fs_Model Fs_Spec Fs_Sys Fs_Proofs.

Definition empty_disk (n : nat) : disk := mkdisk [] n.
Definition no_files : files := fun _ => None.

(** Files behave as a map from paths to contents through every history of writing,
    appending, reading, asking for existence and size, and removing, however the C
    library buffers, on a disk with room for what is written. *)
Theorem C63_files_partial :
  forall malloc ops n, (forall k, malloc k = true) -> Forall c_texts ops ->
  asked ops <= n -> (N.of_nat n < 2 ^ 63)%N ->
  sys_run malloc (empty_disk n) ops = Ok (fs_run no_files ops).
Proof.
  intros malloc ops n Ml C A L. apply (run_ok malloc ops (empty_disk n) no_files 0); auto.
  - intros p. reflexivity.
  - intros p b. discriminate.
  - cbn. lia.
Qed.
Print Assumptions C63_files_partial.

(** Closing twice, or using a closed file, is harmless. *)
Theorem C63_closed :
  forall malloc d f t now,
  close d (snd (close d f)) = (d, None) /\
  write_string d (snd (close d f)) t now = (d, None, err (bs "File not open")) /\
  read_to_string malloc d (snd (close d f)) = Ok (err (bs "File not open")).
Proof. intros malloc d [s|] t now; splits; reflexivity. Qed.
Print Assumptions C63_closed.

(** read_dir lists every entry but "." and "..", in order, with its name. *)
Theorem C63_read_dir_partial :
  forall es, Forall (fun e => ~ In 0%N (fst e) /\ (N.of_nat (length (fst e)) <= 255)%N) es ->
  exists l, read_dir (Some es) = Ok (ok l) /\
    Forall2 (fun r e => text (fst r) (fst e) /\ (snd r = true <-> snd e = DtDir)) l
      (filter (fun e => negb (beq_bytes (fst e) (bs ".") || beq_bytes (fst e) (bs ".."))) es).
Proof.
  intros es F. unfold read_dir.
  assert (H : exists l, read_dir_loop es = Ok l /\
    Forall2 (fun r e => text (fst r) (fst e) /\ (snd r = true <-> snd e = DtDir)) l
      (filter (fun e => negb (beq_bytes (fst e) (bs ".") || beq_bytes (fst e) (bs ".."))) es)).
  2:{ destruct H as (l & -> & H). exists l. now split. }
  induction F as [|[name ty] es [Z L] F (l & E & IH)]; cbn [read_dir_loop filter fst].
  - exists []. now split.
  - unfold read_entry. cbn [fst snd]. cbn in L. rewrite firstn_all2 by lia.
    destruct (beq_bytes name (bs ".") || beq_bytes name (bs "..")); cbn [negb].
    + exists l. now split.
    + destruct (snew_ok name) as (s & -> & Hs). rewrite cstr_id in Hs by now apply nonul_in.
      cbn [bind]. rewrite E. cbn [bind]. eexists. split; [reflexivity|]. constructor; [|exact IH].
      cbn [fst snd]. split; [now apply text_shold|]. destruct ty; split; (reflexivity || discriminate).
Qed.
Print Assumptions C63_read_dir_partial.

(** current_dir returns the path or an error, never part of it. *)
Theorem C63_current_dir :
  forall cwd, ~ In 0%N cwd ->
  exists r, current_dir cwd = Ok r /\
    ((exists s, r = ok s /\ text s cwd) \/ ((1024 <= N.of_nat (length cwd))%N /\ exists e, r = err e)).
Proof.
  intros cwd Z. unfold current_dir. destruct (N.leb_spec (N.of_nat (length cwd) + 1) 1024) as [L|L].
  - destruct (snew_ok cwd) as (s & -> & Hs). cbn [bind]. eexists. split; [reflexivity|]. left. exists s. split; [reflexivity|].
    apply text_shold. rewrite cstr_id in Hs by now apply nonul_in. exact Hs.
  - eexists. split; [reflexivity|]. right. split; [lia|]. eexists. reflexivity.
Qed.
Print Assumptions C63_current_dir.

(** A file that holds a NUL byte is read only up to it. *)
Theorem C63_nul_refuted :
  forall malloc d p a b, (forall k, malloc k = true) ->
  lookup (nodes d) p = Some (Reg (a ++ [0%N] ++ b)) -> ~ In 0%N a ->
  (N.of_nat (length (a ++ [0%N] ++ b)) < 2 ^ 63)%N ->
  exists s, read_all malloc d p = Ok (ok s) /\ text s a.
Proof.
  intros malloc d p a b Ml E Z L. destruct (read_reg malloc d p _ E Ml L) as (s & Es & Hs).
  exists s. split; [exact Es|]. apply text_shold.
  assert (C : cstr (a ++ [0%N] ++ b) = a).
  { clear - Z. induction a as [|c a IH]; [reflexivity|]. cbn.
    destruct (N.eqb_spec c 0) as [->|]; [now destruct Z; left|]. f_equal. apply IH. intros I. apply Z. now right. }
  now rewrite C in Hs.
Qed.
Print Assumptions C63_nul_refuted.

(** Reading a pipe, whose size is -1, writes outside the buffer, whatever it delivers. *)
Theorem C63_pipe_refuted :
  forall malloc d p b, (forall k, malloc k = true) ->
  lookup (nodes d) p = Some (Other (-1) b) -> read_all malloc d p = UB.
Proof.
  intros malloc d p b Ml E. unfold read_all, open, fopen. rewrite E. unfold read_to_string. cbn [s_path]. rewrite E, Ml.
  change ((Z.to_N (-1 mod 2 ^ 64) + 1) mod 2 ^ 64)%N with 0%N.
  destruct (N.leb_spec (N.of_nat (length (firstn (Nat.min (length b)
    (N.to_nat (N.min (Z.to_N (-1 mod 2 ^ 64)) (N.of_nat (length b))))) b)) + 1) 0); [lia|reflexivity].
Qed.
Print Assumptions C63_pipe_refuted.

(** On a full disk every write can succeed and the file still be empty: the failure comes
    when the file is closed, and is not reported. *)
Theorem C63_full_disk_refuted :
  forall p ts, Forall (fun t => snd t = false) ts ->
  exists d, put (empty_disk 0) p Wr ts = (d, Written true) /\ lookup (nodes d) p = Some (Reg []).
Proof.
  intros p ts F. unfold put, open, fopen. cbn [lookup nodes empty_disk].
  set (d := mkdisk _ _).
  assert (H : forall pend, exists pend', write_all d (Some (mkstream p pend)) ts = (d, Some (mkstream p pend'), true)).
  { induction F as [|[t now] ts E F IH]; intros pend; cbn [write_all]; [eauto|]. cbn in E. subst now.
    cbn [write_string s_path pending]. destruct (IH (pend ++ cstr t)) as (pe & ->). eauto. }
  destruct (H []) as (pe & ->). cbn [close fst]. eexists. split; [reflexivity|].
  unfold flush, d, store. cbn [s_path pending nodes lookup room empty_disk]. rewrite beq_refl. cbn [fst nodes lookup store].
  rewrite beq_refl. reflexivity.
Qed.
Print Assumptions C63_full_disk_refuted.

(** Where readdir does not know the type, a directory is listed as none. *)
Theorem C63_dir_type_refuted :
  (do r <- read_dir (Some [(bs "src", DtUnknown)]);
   match r with ok [(_, d)] => Ok d | _ => UB end) = Ok false.
Proof. reflexivity. Qed.
Print Assumptions C63_dir_type_refuted.

Example C63_example :
  let ops := [Write (bs "a") [(bs "x=1", false); (bs ";", true)]; Append (bs "a") [(bs "y", false)]; Read (bs "a");
              Size (bs "a"); Write (bs "b") []; Remove (bs "a"); Exists (bs "a"); Read (bs "a"); Read (bs "b")] in
  Forall c_texts ops /\ asked ops <= 10 /\
  sys_run (fun _ => true) (empty_disk 10) ops =
    Ok [Written true; Written true; Text (Some (bs "x=1;y")); Bytes (Some 5%N); Written true; Written true; Yes false;
        Text None; Text (Some [])].
Proof.
  cbn zeta. split.
  { repeat (apply Forall_cons; [cbn; intuition discriminate|]). apply Forall_nil. }
  split; [apply Nat.leb_le; reflexivity|vm_compute; reflexivity].
Qed.

(** write_string reports success exactly if the bytes it moved to the disk were all it had to move; the only failures are an incomplete write and a file that is not open. *)
Theorem C63_write_result : forall d f t now,
  let '(d', f', r) := write_string d f t now in
  match f with
  | None => r = err (bs "File not open") /\ f' = None /\ d' = d
  | Some s => match r with
    | ok b => b = true /\ (now = false \/ forall old, lookup (nodes d) (s_path s) = Some (Reg old) -> length (pending s ++ cstr t) <= room d)
    | err e => e = bs "Write incomplete" /\ now = true /\ room d < length (pending s ++ cstr t)
    end
  end.
Proof.
  intros d [s|] t now; cbn [write_string]; [|auto]. destruct now; [|auto]. unfold flush. cbn [s_path pending].
  destruct (lookup (nodes d) (s_path s)) as [[b|? ?]|] eqn:L; cbn.
  - destruct (Nat.min (room d) (length (pending s ++ cstr t)) =? length (pending s ++ cstr t)) eqn:E.
    + apply Nat.eqb_eq in E. split; [reflexivity|]. right. intros. lia.
    + apply Nat.eqb_neq in E. splits; auto. lia.
  - split; [reflexivity|]. right. intros old H. discriminate.
  - split; [reflexivity|]. right. intros old H. discriminate.
Qed.
Print Assumptions C63_write_result.
Example C63_write_result_used : snd (write_string (mkdisk [(bs "a", Reg [])] 3) (Some (mkstream (bs "a") [])) (bs "four") true) = err (bs "Write incomplete"). Proof. reflexivity. Qed.
