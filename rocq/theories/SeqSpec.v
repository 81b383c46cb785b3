(** Python's sequence operations, stated by lengths and element positions. *)
From Coq Require Import List ZArith Bool.
From Coq Require Import Sorting.Sorted.
From Verif Require Import IntModel SeqModel.
Import ListNotations.
Open Scope Z_scope.

Section Spec.
  Context {A : Type}.

  Definition len (l : list A) : Z := Z.of_nat (length l).

  (** [at_ l i x]: the element at position [i] (counted from 0) is [x]. *)
  Definition at_ (l : list A) (i : Z) (x : A) : Prop :=
    0 <= i /\ nth_error l (Z.to_nat i) = Some x.

  (** l[k]: negative k counts from the end; out of range raises IndexError. *)
  Definition py_getitem (l : list A) (k : Z) (x : A) : Prop :=
    - len l <= k < len l /\ at_ l (if k <? 0 then k + len l else k) x.

  (** Bounds of a slice (library reference, "Common Sequence Operations", note 4/5):
      None is replaced by the end, a negative value counts from the end, and the
      result is cut off at 0 and at the length. *)
  Definition py_bound (b : option Z) (default n : Z) : Z :=
    match b with
    | None => default
    | Some k => let k' := if k <? 0 then k + n else k in Z.max 0 (Z.min n k')
    end.

  (** l[i:j]: the elements at the positions p with lo <= p < hi, in order. *)
  Definition py_slice (l : list A) (start stop : option Z) : list A :=
    let lo := py_bound start 0 (len l) in
    let hi := py_bound stop (len l) (len l) in
    map snd (filter (fun px => (lo <=? Z.of_nat (fst px)) && (Z.of_nat (fst px) <? hi))
                    (combine (seq 0 (length l)) l)).

  (** l[k] = x *)
  Definition py_setitem (l : list A) (k : Z) (x : A) (l' : list A) : Prop :=
    - len l <= k < len l /\ len l' = len l /\
    let p := if k <? 0 then k + len l else k in
    at_ l' p x /\ forall i y, i <> p -> (at_ l' i y <-> at_ l i y).

  (** l.insert(k, x): as l[k:k] = [x]. *)
  Definition py_insert (l : list A) (k : Z) (x : A) (l' : list A) : Prop :=
    let p := py_bound (Some k) 0 (len l) in
    len l' = len l + 1 /\ at_ l' p x /\
    (forall i y, i < p -> (at_ l' i y <-> at_ l i y)) /\
    (forall i y, p <= i -> (at_ l' (i + 1) y <-> at_ l i y)).

  Definition py_append (l : list A) (x : A) (l' : list A) : Prop :=
    len l' = len l + 1 /\ at_ l' (len l) x /\
    forall i y, i < len l -> (at_ l' i y <-> at_ l i y).

  (** l + o: first the elements of l, then those of o. *)
  Definition py_concat (l o l' : list A) : Prop :=
    len l' = len l + len o /\
    (forall i y, i < len l -> (at_ l' i y <-> at_ l i y)) /\
    (forall i y, 0 <= i -> (at_ l' (len l + i) y <-> at_ o i y)).

  (** l * n: l added to itself n times, empty for n <= 0. *)
  Definition py_repeat (l : list A) (n : Z) : list A := concat (repeat l (Z.to_nat n)).

  (** Membership, index and remove use [x is y or x == y]; [eq] is Python's ==. *)
  Definition py_contains (eq : A -> A -> bool) (l : list A) (x : A) : Prop :=
    exists y, In y l /\ (y = x \/ eq y x = true).

  Definition py_index (eq : A -> A -> bool) (l : list A) (x : A) (i : Z) : Prop :=
    (exists y, at_ l i y /\ (y = x \/ eq y x = true)) /\
    forall j y, j < i -> at_ l j y -> ~ (y = x \/ eq y x = true).

  Definition py_remove (eq : A -> A -> bool) (l : list A) (x : A) (l' : list A) : Prop :=
    exists before y after, l = before ++ y :: after /\ l' = before ++ after /\
      (y = x \/ eq y x = true) /\ forall z, In z before -> ~ (z = x \/ eq z x = true).

  (** Equality of sequences: same length and equal elements pairwise. *)
  Definition py_seq_eq (eq : A -> A -> bool) (l o : list A) : Prop :=
    Forall2 (fun x y => eq x y = true) l o.

  (** sep.join(parts) *)
  Fixpoint py_join (sep : list A) (parts : list (list A)) : list A :=
    match parts with
    | [] => []
    | [p] => p
    | p :: rest => p ++ sep ++ py_join sep rest
    end.
End Spec.

(** range(start, stop, step) for a positive step: ascending, and containing exactly
    the numbers start + i*step below stop. *)
Definition py_range (start stop step : Z) (r : list Z) : Prop :=
  StronglySorted Z.lt r /\
  forall x, In x r <-> exists i, 0 <= i /\ x = start + i * step /\ x < stop.

(** Python value of a string expression: a sequence of code points. *)
Fixpoint py_str (e : strexp) : list Z :=
  match e with SLit s => s | SAdd a b => py_str a ++ py_str b end.

(** Python's == on ints and bools: 1 == True. *)
Definition int_eq (x y : pyint) : bool := unbox x =? unbox y.

(** A constructor contract is consistent if some object satisfies it. *)
Definition satisfiable {A} (post : A -> Prop) : Prop := exists r, post r.

(** The operations that compare with == agree with comparing identities. *)
Section Identity.
  Context {A : Type}.
  Variable eq : A -> A -> bool.
  Definition eq_is_identity (l : list A) (x : A) : Prop := forall y, In y l -> eq y x = true -> y = x.
End Identity.

Section HeapEffects.
  Context {V : Type}.
  Implicit Types (h : @heap V).
  (** only [self] changes, from [s] to a list related by [R] *)
  Definition updates h self h' (R : list V -> list V -> Prop) : Prop :=
    exists s s', h self = Some s /\ h' self = Some s' /\ R s s' /\
      forall l, l <> self -> h' l = h l.
  (** a new list related to [s] appears, nothing else changes *)
  Definition creates h self h' res (R : list V -> list V -> Prop) : Prop :=
    exists s r, h self = Some s /\ h res = None /\ h' res = Some r /\ R s r /\
      forall l, l <> res -> h' l = h l.
End HeapEffects.

(** Histories of operations on a bytearray, as a program could perform them. *)
Inductive ba_reach : bytearray -> Prop :=
| reach_empty : ba_reach []
| reach_int : forall n r, ba_from_int_post n r -> ba_reach r
| reach_list : forall vs r, ba_from_list_pre vs -> ba_from_list_post vs r -> ba_reach r
| reach_copy : forall s, ba_reach s -> ba_reach s
| reach_slice : forall s k r, ba_reach s -> ba_slice_post s k r -> ba_reach r
| reach_set : forall s k v s', ba_reach s -> ba_setitem_pre s k v -> ba_setitem_post s k v s' -> ba_reach s'
| reach_append : forall s v s', ba_reach s -> ba_append_pre v -> ba_append_post s v s' -> ba_reach s'
| reach_extend : forall s o s', ba_reach s -> ba_reach o -> ba_extend_post s o s' -> ba_reach s'
| reach_reverse : forall s s', ba_reach s -> ba_reverse_post s s' -> ba_reach s'.
