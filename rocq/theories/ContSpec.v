(** Python's sets, dictionaries, iteration, for-loops and comprehensions. *)
From Coq Require Import List ZArith Bool.
From Verif Require Import SeqModel SeqSpec ContModel.
Import ListNotations.
Open Scope Z_scope.

(** * Sets: a list without two equal elements; [eq] is Python's ==. *)
Section PySet.
  Context {V : Type}.
  Variable eq : V -> V -> bool.

  Definition py_mem (l : list V) (x : V) : bool := existsb (fun y => eq y x) l.

  Definition py_set_op (l : list V) (o : set_op V) : option (list V) :=
    match o with
    | SetAdd x => if py_mem l x then Some l else Some (l ++ [x])
    | SetRemove x => if py_mem l x then Some (filter (fun y => negb (eq y x)) l) else None (* KeyError *)
    | SetClear => Some []
    end.

  Fixpoint py_set_ops (l : list V) (ops : list (set_op V)) : option (list V) :=
    match ops with
    | [] => Some l
    | o :: ops => match py_set_op l o with Some l' => py_set_ops l' ops | None => None end
    end.

  Definition set_arg (o : set_op V) : list V :=
    match o with SetAdd x => [x] | SetRemove x => [x] | SetClear => [] end.

  (** On the given elements == is the same as identity. *)
  Definition eq_is_id (U : V -> Prop) : Prop := forall x y, U x -> U y -> (eq x y = true <-> x = y).
End PySet.

(** * Dictionaries: pairs in insertion order, no two keys equal. *)
Section PyDict.
  Context {K W : Type}.
  Variable eq : K -> K -> bool.

  Fixpoint py_dict_set (d : list (K * W)) (k : K) (v : W) : list (K * W) :=
    match d with
    | [] => [(k, v)]
    | (k', v') :: d' => if eq k' k then (k', v) :: d' else (k', v') :: py_dict_set d' k v
    end.

  Fixpoint py_dict_get (d : list (K * W)) (k : K) : option W :=
    match d with
    | [] => None
    | (k', v') :: d' => if eq k' k then Some v' else py_dict_get d' k
    end.

  Definition py_dict_run (ops : list (K * W)) : list (K * W) :=
    fold_left (fun d kv => py_dict_set d (fst kv) (snd kv)) ops [].
End PyDict.

(** * Iterators and for-loops *)
Section PyFor.
  Context {V St : Type}.
  Variables (assign : V -> St -> St) (body : list V -> St -> outcome St) (orelse : St -> outcome St).

  (** State of a Python iterator over [xs]: [p] elements have been handed out, and
      [e] tells whether StopIteration was raised. *)
  Definition iter_at (xs : list V) (p : Z) (e : bool) (it : iter V) : Prop :=
    it_list it = xs /\ it_index it = p /\ 0 <= p <= len xs /\
    if e then p = len xs /\ it_prev it = xs else it_prev it = vtake (p - 1) xs.

  (** [seen] are the elements of the finished iterations. *)
  Fixpoint py_for (seen rest : list V) (s : St) : outcome St :=
    match rest with
    | [] => orelse s
    | x :: rest' =>
        match body seen (assign x s) with
        | Normal s' | Continue s' => py_for (seen ++ [x]) rest' s'
        | Break s' => Normal s'
        | Leave s' => Leave s'
        end
    end.
End PyFor.

(** * Quantifiers: all tuples of elements of the domains. *)
Section PyAll.
  Context {V St : Type}.
  (** What Forall(d, ...) ranges over: the values of a type, the elements a container
      has now, or had in the old state. *)
  Definition ranges_over (old cur : St) (d : domain V St) (x : V) : Prop :=
    match d with
    | DType t => t x
    | DCont elems => exists i, nth_error (elems cur) i = Some x
    | DOld elems => exists i, nth_error (elems old) i = Some x
    end.
  (** Nested loops over the domains. *)
  Fixpoint py_all (old cur : St) (ds : list (domain V St)) (body : list V -> Prop) : Prop :=
    match ds with
    | [] => body []
    | d :: ds' => forall x, ranges_over old cur d x -> py_all old cur ds' (fun xs => body (x :: xs))
    end.
End PyAll.

(** * Comprehensions *)
(** [f(x) for x in s if p(x)] *)
Fixpoint py_listcomp {A B} (f : A -> B) (p : A -> bool) (s : list A) : list B :=
  match s with
  | [] => []
  | x :: s' => if p x then f x :: py_listcomp f p s' else py_listcomp f p s'
  end.

Section PyComp.
  Context {A B C : Type}.
  (** {f(x) for x in s if p(x)}: add the elements one after the other. *)
  Definition py_setcomp (eq : B -> B -> bool) (f : A -> B) (p : A -> bool) (s : list A) : option (list B) :=
    py_set_ops eq [] (map SetAdd (py_listcomp f p s)).
  (** {key(x): val(x) for x in s if p(x)}: store the pairs one after the other. *)
  Definition py_dictcomp (eq : B -> B -> bool) (key : A -> B) (val : A -> C) (p : A -> bool) (s : list A) :
      list (B * C) := py_dict_run eq (py_listcomp (fun x => (key x, val x)) p s).
End PyComp.

(** The contents of a dictionary as a Viper map, resp. of a set as a Viper set. *)
Definition represents {K W} (m : vmap K W) (d : list (K * W)) : Prop := forall k v, m k = Some v <-> In (k, v) d.
Definition represents_set {V} (s : vset V) (l : list V) : Prop := forall x, s x <-> In x l.

(** * Pure containers *)
(** take(n), drop(n): the elements before, resp. from, position n. *)
Definition spec_take {V} (l : list V) (n : Z) (r : list V) : Prop :=
  forall i x, at_ r i x <-> at_ l i x /\ i < n.
Definition spec_drop {V} (l : list V) (n : Z) (r : list V) : Prop :=
  forall i x, at_ r i x <-> 0 <= i /\ at_ l (i + Z.max 0 n) x.
Definition spec_update {V} (l : list V) (k : Z) (v : V) (r : list V) : Prop :=
  forall i x, at_ r i x <-> (i = k /\ x = v) \/ (i <> k /\ at_ l i x).
