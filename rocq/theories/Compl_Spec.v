(** What an editor is offered, without the search of lsp_analysis.c. *)
From Verif Require Import Common Compl_Model.
Local Open Scope nat_scope.

(** The statements inside a statement, at any depth, with itself *)
Inductive within : node -> node -> Prop :=
| here n : within n n
| deeper n k x : In k (kids n) -> within k x -> within n x.
Fixpoint count (n : node) : nat :=
  match n with
  | Block l => S (fold_right (fun k m => count k + m) 0 l)
  | If a b => S (match a with Some n => count n | None => 0 end + match b with Some n => count n | None => 0 end)
  | While b => S match b with Some n => count n | None => 0 end
  | For i b => S (match i with Some n => count n | None => 0 end + match b with Some n => count n | None => 0 end)
  | Decl _ _ _ | Leaf => 1
  end.
(** A variable of the function, with its line from 1 and its type *)
Definition local (f : func) (name : bytes) (line : nat) (ty : option bytes) : Prop := exists n, body f = Some n /\ within n (Decl name line ty).
Definition moderate (f : func) : Prop := match body f with Some n => count n < 1024 | None => True end.
Definition lines (s : bytes) : nat := length (filter (N.eqb 10) s).
(** The cursor is behind [left] on the line behind [above] *)
Definition cursor (src : bytes) (line col : nat) (above left : bytes) : Prop :=
  exists right, src = above ++ left ++ right /\ (above = [] \/ exists a, above = a ++ [10%N]) /\ ~ In 10%N left /\ line = lines above /\ col = length left.
(** The bytes of a name; the blanks in front of a dot *)
Definition letter (c : N) : bool := existsb (N.eqb c) (bs "0123456789ABCDEFGHIJKLMNOPQRSTUVWXYZabcdefghijklmnopqrstuvwxyz_").
Definition gap_byte (c : N) : bool := existsb (N.eqb c) [32; 9]%N.
(** The line up to the cursor ends with a dot behind a name *)
Definition dotted (left name : bytes) : Prop :=
  exists pre gap, left = pre ++ name ++ gap ++ [46%N] /\ name <> [] /\ Forall (fun c => letter c = true) name /\ Forall (fun c => gap_byte c = true) gap /\
    (pre = [] \/ exists q c, pre = q ++ [c] /\ letter c = false).
(** The type of a name in the function: that of the parameter, or of the variable if all of that name have one type *)
Definition typed (f : func) (name ty : bytes) : Prop :=
  (NoDup (map fst (params f)) /\ In (name, ty) (params f)) \/
  (~ In name (map fst (params f)) /\ moderate f /\ (exists l, local f name l (Some ty)) /\ forall l t, local f name l t -> t = Some ty).
(** The type is the struct, or a pointer to it *)
Definition struct_type (ty s : bytes) : Prop :=
  exists stars, Forall (fun c => c = 42%N) stars /\ Forall (fun c => letter c = true) s /\ (ty = s ++ stars \/ ty = bs "struct " ++ s ++ stars).
(** The last function that starts above the cursor *)
Definition last_function (p : project) (line : nat) (f : func) : Prop :=
  exists s, In (s, f) (index p) /\ s <= line /\ forall s' f', In (s', f') (index p) -> s' <= line -> s' < s \/ (s', f') = (s, f).
Definition none_above (p : project) (line : nat) : Prop := forall s f, In (s, f) (index p) -> line < s.
