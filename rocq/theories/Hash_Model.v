(** Open-addressing tables: the parts shared by std/map.zc and std/set.zc.

    Simplification: the parallel arrays keys/vals/occupied/deleted (map.zc:22-29) and
    data/occupied/deleted (set.zc:18-24), which are always allocated with the same
    length and indexed together, are one list of records. *)
From Verif Require Import Common.

Section Table.
  Context {K V : Type}.

  (** [skv = None]: the key pointer is null (calloc) or was freed; using it is UB. *)
  Record slot := mkslot { socc : bool; sdel : bool; skv : option (K * V) }.

  (** a slot of a calloc'ed table: map.zc:100-103, set.zc:38-40 *)
  Definition sfree0 : slot := mkslot false false None.

  Definition live (s : slot) : bool := socc s && negb (sdel s).

  Definition slot_at (t : list slot) (i : nat) : res slot :=
    match nth_error t i with Some s => Ok s | None => UB end.

  Definition kv_of (s : slot) : res (K * V) :=
    match skv s with Some p => Ok p | None => UB end.

  Section Loops.
    Context {R : Type} (dec : slot -> res (option R)) (t : list slot) (cap : nat).

    (** [while (true) { test slot idx; idx = (idx + 1) % cap; }]:
        map.zc:129-144 (put), 183-194 (remove), set.zc:68-70 (add).
        [n] bounds the iterations; [Fuel] means the loop is still running. *)
    Fixpoint probe (n idx : nat) : res (nat * R) :=
      match n with
      | 0 => Fuel
      | S n =>
          do s <- slot_at t idx;
          do o <- dec s;
          match o with
          | Some r => Ok (idx, r)
          | None => probe n ((idx + 1) mod cap)
          end
      end.

    (** the same with [if (idx == start_idx) return none]:
        map.zc:156-169 (get), set.zc:88-97 (contains), 108-117 (remove) *)
    Fixpoint probe_back (n start idx : nat) : res (option (nat * R)) :=
      match n with
      | 0 => Fuel
      | S n =>
          do s <- slot_at t idx;
          do o <- dec s;
          match o with
          | Some r => Ok (Some (idx, r))
          | None =>
              let idx := (idx + 1) mod cap in
              if idx =? start then Ok None else probe_back n start idx
          end
      end.
  End Loops.
End Table.
Arguments slot : clear implicits.

(** FNV-1a: map.zc:7-20 and set.zc:6-16 (64-bit [usize]).  The seed is the global
    [__zen_hash_seed], core.zc:8, which std/time.zc:48-51 can change at run time.
    For a map key the bytes stop at the terminating NUL. *)
Definition fnv1a (seed : N) (b : bytes) : N :=
  fold_left (fun h x => (N.lxor h x * 1099511628211) mod (2 ^ 64))%N b seed.
Definition default_seed : N := 14695981039346656037%N.

(** map.zc:126-127, 152-153, 180-181; set.zc:65-66, 84-85, 104-105.
    [hash % cap]; the callers make sure [cap] is not 0, see [UB] there. *)
Definition home {K} (hash : K -> N) (cap : nat) (k : K) : nat :=
  N.to_nat (hash k mod N.of_nat cap).
