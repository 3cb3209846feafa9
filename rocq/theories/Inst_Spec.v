(** What instantiating generic structs should produce, told from the source types alone. *)
From Verif Require Import Common Mangle_Model Inst_Model.
Local Open Scope nat_scope.

(** The C spelling of a type: an instance has the name of the template, an underscore and its
    argument made into an identifier.  [arg_name] is how a type is spelt inside such a name. *)
Fixpoint arg_name (t : sty) : bytes :=
  match t with
  | SPrim s _ => s
  | SName n => n
  | SPtr t => arg_name t ++ bs "*"
  | SApp g t => g ++ bs "_" ++ sanitize (arg_name t)
  end.
Fixpoint c_type (t : sty) : bytes :=
  match t with
  | SPrim _ c => c
  | SPtr t => c_type t ++ bs "*"
  | SName _ | SApp _ _ => arg_name t
  end.
Definition instance (g : bytes) (a : sty) : bytes := c_type (SApp g a).

(** [a] for the parameter [p] *)
Fixpoint subst (p : bytes) (a : sty) (t : sty) : sty :=
  match t with
  | SPrim s c => SPrim s c
  | SName n => if beq_bytes n p then a else SName n
  | SPtr t => SPtr (subst p a t)
  | SApp g t => SApp g (subst p a t)
  end.

(** A generic struct as written: its name, its parameter, its fields *)
Definition tdecl : Type := bytes * bytes * list (bytes * sty).
Definition decl (d : tdecl) : item := let '(n, p, fs) := d in ITemplate n p fs.

(** Structs that hold, or point to, an instance of [g'] at their own parameter *)
Fixpoint mentions (p : bytes) (g' : bytes) (t : sty) : Prop :=
  match t with
  | SApp g t => g = g' /\ t = SName p
  | SPtr t => mentions p g' t
  | _ => False
  end.
Inductive needs (ds : list tdecl) : bytes -> bytes -> Prop :=
| needs_self g : needs ds g g
| needs_step g p fs f t g' g'' : In (g, p, fs) ds -> In (f, t) fs -> mentions p g' t -> needs ds g' g'' -> needs ds g g''.

(** Letters and digits only *)
Definition word (n : bytes) : Prop :=
  n <> [] /\ Forall (fun c => 97 <= c <= 122 \/ 65 <= c <= 90 \/ 48 <= c <= 57)%N n.
(** A name that has nothing to do with the templates [ds] or the parameter [p] *)
Definition unrelated (ds : list tdecl) (p n : bytes) : Prop :=
  n <> p /\ ~ In 42%N n /\ ~ (exists x, n = x ++ bs "_" ++ p) /\ ~ (exists x, n = bs "Slice_" ++ x) /\
  forall d x, In d ds -> n <> fst (fst d) ++ bs "_" ++ x.
(** The field types the theorem is about: the parameter, an unrelated type, another template
    at the parameter, or a pointer to any of these *)
Inductive field_type (ds : list tdecl) (p : bytes) : sty -> Prop :=
| ft_param : field_type ds p (SName p)
| ft_prim s c : unrelated ds p c -> field_type ds p (SPrim s c)
| ft_name n : unrelated ds p n -> field_type ds p (SName n)
| ft_ptr t : field_type ds p t -> field_type ds p (SPtr t)
| ft_app g : In g (map (fun d => fst (fst d)) ds) -> field_type ds p (SApp g (SName p)).
Definition good_decls (ds : list tdecl) : Prop :=
  NoDup (map (fun d => fst (fst d)) ds) /\
  forall n p fs, In (n, p, fs) ds ->
    word n /\ word p /\ length n < 100 /\ length p < 100 /\ forall f t, In (f, t) fs -> field_type ds p t.
(** The arguments: a name of letters and digits that is not one capital letter and does not
    end in Ptr *)
Definition good_arg (a : bytes) : Prop :=
  word a /\ length a < 100 /\ ~ (exists c, a = [c] /\ (65 <= c <= 90)%N) /\ ~ (exists x, a = x ++ bs "Ptr").

(** A type used in the program but neither defined there nor known from elsewhere *)
Definition base_name (t : bytes) : bytes := before_star t.
Definition undefined (known : list bytes) (out : list (bytes * list (bytes * bytes))) (n : bytes) : Prop :=
  (exists s fs f t, In (s, fs) out /\ In (f, t) fs /\ base_name t = n) /\ ~ In n (map fst out) /\ ~ In n known.
