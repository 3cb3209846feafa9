(** Threads and mutexes of the standard library (std/thread.zc), running on a machine that
    interleaves the steps of the threads in any order.  The functions of the library are
    modelled call by call; malloc, free, memcpy and the pthread functions are instructions of
    the machine and behave as POSIX says, with undefined behaviour where POSIX leaves it
    undefined.  malloc and pthread_create may fail at any time.  Reads and writes of shared
    variables are sequentially consistent steps, and two conflicting ones that are both about
    to happen (a data race) are undefined behaviour.  The process is taken to live until its
    last thread has ended. *)
From Verif Require Import Common.
Local Open Scope nat_scope.

Section Thread.
Variable value : Type.

(** What a thread still has to do.  [p], [q]: blocks of memory; [h]: threads. *)
Inductive code :=
| Exit
| Malloc (k : option nat -> code)
| Memcpy (p : nat) (closure : code) (k : code)
| Free (p : nat) (k : code)
| Create (p : nat) (k : option nat -> code)
| Apply (p : nat) (k : code)
| PJoin (h : nat) (k : bool -> code)
| PDetach (h : nat) (k : bool -> code)
| PCancel (h : nat) (k : bool -> code)
| Handle (k : option nat -> code)
| SetHandle (q : option nat) (k : code)
| MInit (q : option nat) (k : code)
| MLock (q : option nat) (k : code)
| MUnlock (q : option nat) (k : code)
| MDestroy (q : option nat) (k : code)
| Read (x : nat) (k : value -> code)
| Write (x : nat) (v : value) (k : code)
| Point (k : code).

(** ** std/thread.zc *)

(** std/thread.zc:24-31 _z_thread_trampoline: run the closure, free its copy *)
Definition trampoline (p : nat) : code := Apply p (Free p Exit).
(** std/thread.zc:103-120 Thread::spawn, with _z_thread_spawn (37-44).  [None]: an error *)
Definition thread_spawn (func : code) (k : option nat -> code) : code :=
  Malloc (fun ctx =>
    match ctx with
    | None => k None
    | Some p => Memcpy p func (Create p (fun ret => match ret with None => Free p (k None) | Some h => k (Some h) end))
    end).
(** std/thread.zc:122-128 Thread::join.  [false]: an error *)
Definition thread_join (h : nat) (k : bool -> code) : code := PJoin h k.
(** std/thread.zc:130-136 Thread::detach *)
Definition thread_detach (h : nat) (k : bool -> code) : code := PDetach h k.
(** std/thread.zc:138-144 Thread::cancel *)
Definition thread_cancel (h : nat) (k : bool -> code) : code := PCancel h k.
(** std/thread.zc:152-156 Mutex::new; there is one mutex variable in this model *)
Definition mutex_new (k : code) : code := Malloc (fun ptr => MInit ptr (SetHandle ptr k)).
(** std/thread.zc:158-160 Mutex::lock *)
Definition mutex_lock (k : code) : code := Handle (fun q => MLock q k).
(** std/thread.zc:162-164 Mutex::unlock *)
Definition mutex_unlock (k : code) : code := Handle (fun q => MUnlock q k).
(** std/thread.zc:166-172 Mutex::free, and its drop *)
Definition mutex_free (k : code) : code :=
  Handle (fun q => match q with Some p => MDestroy q (Free p (SetHandle None k)) | None => k end).
(** std/thread.zc:181-184 sleep_ms, as far as its argument goes: the product is a C int;
    what usleep is given is unsigned *)
Definition sleep_ms (ms : Z) : res Z :=
  let micros := (ms * 1000)%Z in
  if ((-2147483648 <=? micros) && (micros <=? 2147483647))%Z then Ok (micros mod 4294967296)%Z else UB.

(** ** The machine *)
Inductive block := Freed | Raw | Closure (c : code) | Mutex (owner : option nat).
(** [pops]: what is left to do after the function being called.  [reaped]: joined or detached *)
Record thread := mkth { now : code; pops : list code; reaped : bool; cancelled : bool }.
Record state := mkst { mem : nat -> value; heap : list block; handle : option nat; threads : list thread }.

Fixpoint replace {A} (n : nat) (a : A) (l : list A) : list A :=
  match l, n with _ :: r, O => a :: r | b :: r, S n => b :: replace n a r | [], _ => [] end.
Definition set (m : nat -> value) (x : nat) (v : value) : nat -> value := fun y => if y =? x then v else m y.
Definition ended (t : thread) : bool := match now t, pops t with Exit, [] => true | _, _ => false end.

(** The next instruction of a thread is an access to [x] ([w]: only a write counts) *)
Definition accesses (x : nat) (w : bool) (t : thread) : bool :=
  match now t with Read y _ => negb w && (y =? x) | Write y _ _ => y =? x | _ => false end.
Fixpoint others {A} (n : nat) (l : list A) : list A :=
  match l, n with _ :: r, O => r | b :: r, S n => b :: others n r | [], _ => [] end.

(** One instruction of thread [i]; [ok]: malloc or pthread_create succeeds.  [None]: it has
    ended, or has to wait. *)
Definition step (s : state) (i : nat) (ok : bool) : res (option state) :=
  match nth_error (threads s) i with
  | None => Ok None
  | Some t =>
    let go m h hd c := Ok (Some (mkst m h hd (replace i (mkth c (pops t) (reaped t) (cancelled t)) (threads s)))) in
    let next c := go (mem s) (heap s) (handle s) c in
    let at_heap p b c := go (mem s) (replace p b (heap s)) (handle s) c in
    match now t with
    | Exit => match pops t with
              | [] => Ok None
              | c :: r => Ok (Some (mkst (mem s) (heap s) (handle s) (replace i (mkth c r (reaped t) (cancelled t)) (threads s))))
              end
    | Malloc k => if ok then go (mem s) (heap s ++ [Raw]) (handle s) (k (Some (length (heap s)))) else next (k None)
    | Memcpy p c k => match nth_error (heap s) p with
                      | Some Raw | Some (Closure _) => at_heap p (Closure c) k
                      | _ => UB
                      end
    | Free p k => match nth_error (heap s) p with
                  | Some Freed | None => UB
                  | Some _ => at_heap p Freed k
                  end
    | Create p k =>
      if ok then Ok (Some (mkst (mem s) (heap s) (handle s)
        (replace i (mkth (k (Some (length (threads s)))) (pops t) (reaped t) (cancelled t)) (threads s) ++ [mkth (trampoline p) [] false false])))
      else next (k None)
    | Apply p k => match nth_error (heap s) p with
                   | Some (Closure c) => Ok (Some (mkst (mem s) (heap s) (handle s) (replace i (mkth c (k :: pops t) (reaped t) (cancelled t)) (threads s))))
                   | _ => UB
                   end
    | PJoin h k =>
      if h =? i then next (k false)
      else match nth_error (threads s) h with
           | None => UB
           | Some u =>
             if reaped u then UB
             else if ended u then Ok (Some (mkst (mem s) (heap s) (handle s)
               (replace h (mkth (now u) (pops u) true (cancelled u)) (replace i (mkth (k true) (pops t) (reaped t) (cancelled t)) (threads s)))))
             else Ok None
           end
    | PDetach h k =>
      match nth_error (threads s) h with
      | None => UB
      | Some u => if reaped u then UB
                  else if h =? i then Ok (Some (mkst (mem s) (heap s) (handle s) (replace i (mkth (k true) (pops t) true (cancelled t)) (threads s))))
                  else Ok (Some (mkst (mem s) (heap s) (handle s)
                         (replace h (mkth (now u) (pops u) true (cancelled u)) (replace i (mkth (k true) (pops t) (reaped t) (cancelled t)) (threads s)))))
      end
    | PCancel h k =>
      match nth_error (threads s) h with
      | None => UB
      | Some u => if reaped u then UB
                  else if h =? i then Ok (Some (mkst (mem s) (heap s) (handle s) (replace i (mkth (k true) (pops t) (reaped t) true) (threads s))))
                  else Ok (Some (mkst (mem s) (heap s) (handle s)
                         (replace h (mkth (now u) (pops u) (reaped u) true) (replace i (mkth (k true) (pops t) (reaped t) (cancelled t)) (threads s)))))
      end
    | Handle k => next (k (handle s))
    | SetHandle q k => go (mem s) (heap s) q k
    | MInit q k => match q with
                   | Some p => match nth_error (heap s) p with Some Raw => at_heap p (Mutex None) k | _ => UB end
                   | None => UB
                   end
    | MLock q k => match q with
                   | Some p => match nth_error (heap s) p with
                               | Some (Mutex None) => at_heap p (Mutex (Some i)) k
                               | Some (Mutex (Some _)) => Ok None
                               | _ => UB
                               end
                   | None => UB
                   end
    | MUnlock q k => match q with
                     | Some p => match nth_error (heap s) p with
                                 | Some (Mutex (Some o)) => if o =? i then at_heap p (Mutex None) k else UB
                                 | _ => UB
                                 end
                     | None => UB
                     end
    | MDestroy q k => match q with
                      | Some p => match nth_error (heap s) p with Some (Mutex None) => at_heap p Raw k | _ => UB end
                      | None => UB
                      end
    | Read x k => if existsb (accesses x true) (others i (threads s)) then UB else next (k (mem s x))
    | Write x v k => if existsb (accesses x false) (others i (threads s)) then UB else go (set (mem s) x v) (heap s) (handle s) k
    | Point k => if cancelled t then Ok (Some (mkst (mem s) (heap s) (handle s) (replace i (mkth Exit [] (reaped t) true) (threads s)))) else next k
    end
  end.
(** A schedule says whose turn it is; a thread that has to wait lets its turn pass *)
Fixpoint run (s : state) (l : list (nat * bool)) : res state :=
  match l with
  | [] => Ok s
  | (i, ok) :: l => do r <- step s i ok; run (match r with Some s => s | None => s end) l
  end.

(** ** Programs that use the library *)

(** A critical section: reads and writes of shared variables, and a result *)
Inductive section := Ret (v : value) | Load (x : nat) (k : value -> section) | Store (x : nat) (v : value) (k : section).
(** What a thread does: nothing more, a critical section between lock and unlock, starting a
    thread, joining one, freeing the mutex *)
Inductive script :=
| End
| Critical (s : section) (k : value -> script)
| Spawn (w : script) (k : option nat -> script)
| Join (h : nat) (k : bool -> script)
| Release (k : script).

Fixpoint section_code (s : section) (k : value -> code) : code :=
  match s with
  | Ret v => k v
  | Load x f => Read x (fun v => section_code (f v) k)
  | Store x v s => Write x v (section_code s k)
  end.
Fixpoint script_code (p : script) : code :=
  match p with
  | End => Exit
  | Critical s k => mutex_lock (section_code s (fun v => mutex_unlock (script_code (k v))))
  | Spawn w k => thread_spawn (script_code w) (fun r => script_code (k r))
  | Join h k => thread_join h (fun r => script_code (k r))
  | Release k => mutex_free (script_code k)
  end.
(** The program: its first thread makes the mutex and goes on *)
Definition start (m : nat -> value) (p : script) : state :=
  mkst m [] None [mkth (mutex_new (script_code p)) [] false false].
End Thread.
Arguments Exit {value}. Arguments Malloc {value}. Arguments Memcpy {value}. Arguments Free {value}. Arguments Create {value}.
Arguments Apply {value}. Arguments PJoin {value}. Arguments PDetach {value}. Arguments PCancel {value}. Arguments Handle {value}.
Arguments SetHandle {value}. Arguments MInit {value}. Arguments MLock {value}. Arguments MUnlock {value}. Arguments MDestroy {value}.
Arguments Read {value}. Arguments Write {value}. Arguments Point {value}.
Arguments trampoline {value}. Arguments thread_spawn {value}. Arguments thread_join {value}. Arguments thread_detach {value}. Arguments thread_cancel {value}.
Arguments mutex_new {value}. Arguments mutex_lock {value}. Arguments mutex_unlock {value}. Arguments mutex_free {value}.
Arguments Freed {value}. Arguments Raw {value}. Arguments Closure {value}. Arguments Mutex {value}.
Arguments mkth {value}. Arguments now {value}. Arguments pops {value}. Arguments reaped {value}. Arguments cancelled {value}.
Arguments mkst {value}. Arguments mem {value}. Arguments heap {value}. Arguments handle {value}. Arguments threads {value}.
Arguments set {value}. Arguments ended {value}. Arguments accesses {value}. Arguments step {value}. Arguments run {value}.
Arguments Ret {value}. Arguments Load {value}. Arguments Store {value}.
Arguments End {value}. Arguments Critical {value}. Arguments Spawn {value}. Arguments Join {value}. Arguments Release {value}.
Arguments section_code {value}. Arguments script_code {value}. Arguments start {value}.
