(** What threads and a mutex should mean: critical sections happen one at a time. *)
From Verif Require Import Common Thread_Model.
Local Open Scope nat_scope.

Section Spec.
Variable value : Type.
Notation script := (script value). Notation section := (section value).

(** A critical section, all at once *)
Fixpoint perform (s : section) (m : nat -> value) : (nat -> value) * value :=
  match s with
  | Ret v => (m, v)
  | Load x k => perform (k (m x)) m
  | Store x v s => perform s (fun y => if y =? x then v else m y)
  end.

(** The threads, what each has left to do and whether it has been joined; the shared
    variables; whether the mutex is gone *)
Record world := mkworld { vars : nat -> value; crew : list (script * bool); gone : bool }.
Definition put (i : nat) (p : script) (l : list (script * bool)) : list (script * bool) :=
  match nth_error l i with Some (_, j) => replace i (p, j) l | None => l end.

(** One thread does one thing. *)
Inductive serial : world -> world -> Prop :=
| s_critical w i s k j : nth_error (crew w) i = Some (Critical s k, j) -> gone w = false ->
    serial w (mkworld (fst (perform s (vars w))) (put i (k (snd (perform s (vars w)))) (crew w)) (gone w))
| s_spawn w i p k j : nth_error (crew w) i = Some (Spawn p k, j) ->
    serial w (mkworld (vars w) (put i (k (Some (length (crew w)))) (crew w) ++ [(p, false)]) (gone w))
| s_fail w i p k j : nth_error (crew w) i = Some (Spawn p k, j) ->
    serial w (mkworld (vars w) (put i (k None) (crew w)) (gone w))
| s_join w i h k j : nth_error (crew w) i = Some (Join h k, j) -> nth_error (crew w) h = Some (End, false) ->
    serial w (mkworld (vars w) (replace h (End, true) (put i (k true) (crew w))) (gone w))
| s_self w i k j : nth_error (crew w) i = Some (Join i k, j) ->
    serial w (mkworld (vars w) (put i (k false) (crew w)) (gone w))
| s_release w i k j : nth_error (crew w) i = Some (Release k, j) ->
    serial w (mkworld (vars w) (put i k (crew w)) true).
Inductive serials : world -> world -> Prop :=
| s_none w : serials w w
| s_more w w1 w2 : serials w w1 -> serial w1 w2 -> serials w w2.

(** Mistakes of the program: a critical section without the mutex, joining what is no thread
    or was joined before, freeing the mutex while another thread has something left to do *)
Inductive mistake (w : world) : Prop :=
| m_gone i s k j : nth_error (crew w) i = Some (Critical s k, j) -> gone w = true -> mistake w
| m_handle i h k j : nth_error (crew w) i = Some (Join h k, j) -> nth_error (crew w) h = None -> mistake w
| m_twice i h k j p : nth_error (crew w) i = Some (Join h k, j) -> h <> i -> nth_error (crew w) h = Some (p, true) -> mistake w
| m_early i k j h p j' : nth_error (crew w) i = Some (Release k, j) -> gone w = false -> h <> i -> nth_error (crew w) h = Some (p, j') -> p <> End -> mistake w.
Definition correct (m : nat -> value) (p : script) : Prop :=
  forall w, serials (mkworld m [(p, false)] false) w -> ~ mistake w.
End Spec.
Arguments perform {value}. Arguments mkworld {value}. Arguments vars {value}. Arguments crew {value}. Arguments gone {value}.
Arguments put {value}. Arguments serial {value}. Arguments serials {value}. Arguments mistake {value}. Arguments correct {value}.
