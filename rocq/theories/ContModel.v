(** Model of Nagini's contracts for sets, dictionaries, iterators and pure
    containers, of the for-loop encoding, of comprehensions and of quantifiers.

    Sources: /repo/src/nagini_translation/resources/{set_dict,iterator,list,pset,
    seq}.sil; translators/statement.py (translate_stmt_For and its helpers);
    translators/expression.py (comprehensions); translators/contract.py
    (translate_forall, translate_exists, ToMS).

    Type and permission clauses are dropped except where a frame matters.
    References are elements of an arbitrary type [V]; equality of references is
    Coq equality. *)
From Coq Require Import List ZArith Bool.
From Verif Require Import SeqModel.
Import ListNotations.
Open Scope Z_scope.

(** * Viper sets and maps *)
Section Sets.
  Context {V : Type}.

  (** Set[Ref], finite by [vcard]. *)
  Definition vset := V -> Prop.
  (** |s| = n *)
  Definition vcard (s : vset) (n : Z) : Prop :=
    exists l, NoDup l /\ (forall x, In x l <-> s x) /\ vlen l = n.

  (** set___init__ (set_dict.sil:10-16). *)
  Definition set_init_post (s : vset) : Prop := forall x, ~ s x.
  (** set___len__ (18-22), set___contains__ (24-28), set___bool__ (30-35). *)
  Definition set_len_post (s : vset) (n : Z) : Prop := vcard s n.
  Definition set_contains_post (s : vset) (x : V) (b : bool) : Prop := b = true <-> s x.
  Definition set_bool_post (s : vset) (b : bool) : Prop :=
    exists n, vcard s n /\ b = negb (n =? 0).
  (** set_add (52-60): old union {item}. *)
  Definition set_add_post (s : vset) (x : V) (s' : vset) : Prop := forall y, s' y <-> s y \/ y = x.
  (** set_remove (62-71). *)
  Definition set_remove_pre (s : vset) (x : V) : Prop := s x.
  Definition set_remove_post (s : vset) (x : V) (s' : vset) : Prop := forall y, s' y <-> s y /\ y <> x.
  (** set_clear (73-80). *)
  Definition set_clear_post (s' : vset) : Prop := forall x, ~ s' x.
  (** set___sil_seq__ (82-89): the sequence that iteration and quantifiers use. *)
  Definition set_sil_seq_post (s : vset) (r : list V) : Prop :=
    vcard s (vlen r) /\ (forall c, s c <-> In c r) /\
    (forall i x, i >= 0 /\ i < vlen r -> vget r i = Some x -> ~ In x (vtake i r)).

  (** Histories of operations on one set. *)
  Inductive set_op := SetAdd (x : V) | SetRemove (x : V) | SetClear.
  Definition set_step (s : vset) (o : set_op) (s' : vset) : Prop :=
    match o with
    | SetAdd x => set_add_post s x s'
    | SetRemove x => set_remove_pre s x /\ set_remove_post s x s'
    | SetClear => set_clear_post s'
    end.
  Inductive set_steps : vset -> list set_op -> vset -> Prop :=
  | set_done : forall s, set_steps s [] s
  | set_more : forall s o s' ops s'', set_step s o s' -> set_steps s' ops s'' ->
      set_steps s (o :: ops) s''.
  (** A set created by set() and then changed by [ops]. *)
  Definition set_run (ops : list set_op) (s : vset) : Prop :=
    exists s0, set_init_post s0 /\ set_steps s0 ops s.
End Sets.
Arguments vset V : clear implicits.
Arguments set_op V : clear implicits.

Section Dicts.
  Context {K W : Type}.

  (** Map[Ref, Ref] *)
  Definition vmap := K -> option W.
  Definition vdom (m : vmap) : vset K := fun k => m k <> None.

  (** dict___init__ (93-96). *)
  Definition dict_init_post (m : vmap) : Prop := forall k, m k = None.
  (** dict___contains__ (99-103), dict___bool__ (118-123), dict___len__ (166-170). *)
  Definition dict_contains_post (m : vmap) (k : K) (b : bool) : Prop := b = true <-> vdom m k.
  Definition dict_len_post (m : vmap) (n : Z) : Prop := vcard (vdom m) n.
  Definition dict_bool_post (m : vmap) (b : bool) : Prop :=
    exists n, vcard (vdom m) n /\ b = negb (n =? 0).
  (** dict___getitem__ (133-139). *)
  Definition dict_getitem_pre (m : vmap) (k : K) : Prop := vdom m k.
  Definition dict_getitem_post (m : vmap) (k : K) (v : W) : Prop := m k = Some v.
  (** dict_get (141-145); [None] for null. *)
  Definition dict_get_post (m : vmap) (k : K) (r : option W) : Prop :=
    (vdom m k -> exists v, dict_getitem_post m k v /\ r = Some v) /\ (~ vdom m k -> r = None).
  (** dict___setitem__ (147-153). *)
  Definition dict_setitem_post (m : vmap) (k : K) (v : W) (m' : vmap) : Prop :=
    m' k = Some v /\ forall j, j <> k -> m' j = m j.
  (** dict_keys (125-130): a new set. *)
  Definition dict_keys_post (m : vmap) (r : vset K) : Prop := forall k, r k <-> vdom m k.
  (** dict_values (156-164): a new list. *)
  Definition dict_values_post (m : vmap) (r : list W) : Prop :=
    vcard (vdom m) (vlen r) /\ forall v, In v r <-> exists k, m k = Some v.
  (** dict___sil_seq__ (172-177). *)
  Definition dict_sil_seq_post (m : vmap) (r : list K) : Prop :=
    vcard (vdom m) (vlen r) /\ forall k, vdom m k <-> In k r.

  Inductive dict_steps : vmap -> list (K * W) -> vmap -> Prop :=
  | dict_done : forall m, dict_steps m [] m
  | dict_more : forall m k v m' ops m'', dict_setitem_post m k v m' -> dict_steps m' ops m'' ->
      dict_steps m ((k, v) :: ops) m''.
  (** A dictionary created by dict() and then changed by d[k] = v for the given pairs. *)
  Definition dict_run (ops : list (K * W)) (m : vmap) : Prop :=
    exists m0, dict_init_post m0 /\ dict_steps m0 ops m.
End Dicts.
Arguments vmap K W : clear implicits.

(** Heap with dictionaries and sets, for the lifetime of the object returned by keys(). *)
Record dheap (K W : Type) := { h_dict : nat -> option (vmap K W); h_set : nat -> option (vset K) }.
Arguments h_dict {K W}. Arguments h_set {K W}.

(** dict_keys (125-130) on the heap: full permission to the result, hence fresh; the
    rest is framed. *)
Definition dict_keys_heap {K W} (h : dheap K W) (d : nat) (h' : dheap K W) (res : nat) : Prop :=
  exists m r, h_dict h d = Some m /\ h_set h res = None /\ h_set h' res = Some r /\
    dict_keys_post m r /\ (forall l, h_dict h' l = h_dict h l) /\
    (forall l, l <> res -> h_set h' l = h_set h l).
(** dict___setitem__ (147-153) on the heap: permission to dict_acc of self only. *)
Definition dict_setitem_heap {K W} (h : dheap K W) (d : nat) (k : K) (v : W) (h' : dheap K W) : Prop :=
  exists m m', h_dict h d = Some m /\ h_dict h' d = Some m' /\ dict_setitem_post m k v m' /\
    (forall l, l <> d -> h_dict h' l = h_dict h l) /\ (forall l, h_set h' l = h_set h l).

(** * Iterators (iterator.sil) *)
Section Iterators.
  Context {V : Type}.

  (** Fields list_acc, __iter_index, __previous (8-10). *)
  Record iter := { it_list : list V; it_index : Z; it_prev : list V }.

  (** list___iter__ (list.sil:169-182); set___iter__ and dict___iter__
      (set_dict.sil:37-50, 105-115) are the same with the sequence of the container. *)
  Definition iter_init_post (s : list V) (it : iter) : Prop :=
    it_list it = s /\ it_index it = 0 /\ it_prev it = [].

  (** Iterator___next__ (12-37). [res] is the returned reference, [err] tells whether
      _err is not null. *)
  Definition next_post (old : iter) (res : V) (err : bool) (new : iter) : Prop :=
    let l := it_list new in
    let i := it_index new in
    it_list new = it_list old /\                                            (* 20 *)
    i <= vlen l + 1 /\                                                      (* 22 *)
    (it_index old = vlen (it_list old) <-> err = true) /\                   (* 23 *)
    (err = false -> i = it_index old + 1) /\                                (* 25 *)
    (err = false -> i > 0) /\                                               (* 26 *)
    (err = false -> it_prev new = vtake (i - 1) l) /\                       (* 27 *)
    (vlen l > 0 -> i > 0) /\                                                (* 28 *)
    (err = true -> it_prev new = l) /\                                      (* 29 *)
    (err = true -> i = vlen l) /\                                           (* 30 *)
    (vlen l > 0 -> vget l (i - 1) = Some res /\ In res l) /\                (* 31 *)
    (forall r, In r (it_prev new) <->                                       (* 34-36 *)
       (In r (it_prev old) \/
        (i > 1 /\ Some r = vget l (i - 2) /\ err = false) \/
        (i > 0 /\ err = true /\ Some r = vget l (i - 1)))).

  (** ** For-loops (statement.py:759-891) *)
  Context {St : Type}.

  (** Result of executing a block: normal end, break, continue, or leaving the
      function (return or exception). *)
  Inductive outcome := Normal (s : St) | Break (s : St) | Continue (s : St) | Leave (s : St).

  (** [assign x s]: assignment of the loop target. [body p s]: the loop body, which may
      mention Previous(x), i.e. the field __previous [p] (contract.py:479-497).
      [orelse]: the else branch. *)
  Variables (assign : V -> St -> St) (body : list V -> St -> outcome) (orelse : St -> outcome).

  (** conditional_assign (statement.py:811-815). *)
  Definition cond_assign (err : bool) (x : V) (s : St) : St := if err then s else assign x s.

  (** The while loop (859-868): its body is the translated loop body, the label
      loop_end that continue jumps to (862), the call of next and the conditional
      assignment. Break jumps to post_loop (889), behind the else branch. The
      annotated invariants and the module variables are left out. *)
  Inductive loop_run : iter -> bool -> St -> outcome -> Prop :=
  | loop_end_normal : forall it s, loop_run it true s (orelse s)
  | loop_iter : forall it s s' x err it' o,
      (body (it_prev it) s = Normal s' \/ body (it_prev it) s = Continue s') ->
      next_post it x err it' ->
      loop_run it' err (cond_assign err x s') o ->
      loop_run it false s o
  | loop_break : forall it s s', body (it_prev it) s = Break s' -> loop_run it false s (Normal s')
  | loop_leave : forall it s s', body (it_prev it) s = Leave s' -> loop_run it false s (Leave s').

  (** translate_stmt_For (759-891) on the sequence [xs] of the iterable. *)
  Definition for_run (xs : list V) (s : St) (o : outcome) : Prop :=
    exists it0 it x err, iter_init_post xs it0 /\ next_post it0 x err it /\
      loop_run it err (cond_assign err x s) o.

  (** _create_for_loop_invariant (471-662), the clauses about the iterator, the target
      variable loop_target [x], which every call of next assigns (785-790). *)
  Definition for_invariant (xs : list V) (it : iter) (x : V) (err : bool) : Prop :=
    let l := it_list it in
    let i := it_index it in
    l = xs /\                                             (* 561-565 *)
    (err = false -> i - 1 = vlen (it_prev it)) /\         (* 597 *)
    (err = true -> i = vlen (it_prev it)) /\              (* 599 *)
    (err = false -> vlen l > 0) /\                        (* 608 *)
    (i >= 0 /\ i <= vlen l) /\                            (* 615 *)
    (vlen l > 0 -> i > 0) /\                              (* 629 *)
    (vlen l > 0 -> vget l (i - 1) = Some x) /\            (* 635 *)
    (vlen l > 0 -> In x l) /\                             (* 637 *)
    (err = false -> it_prev it = vtake (i - 1) l) /\      (* 645 *)
    (err = true -> it_prev it = l) /\                     (* 659 *)
    (vlen l = 0 -> err = true).                           (* 661 *)

  (** States at the head of the loop; [done] are the values the target had in the
      iterations finished so far. *)
  Inductive loop_head (xs : list V) (s0 : St) : list V -> iter -> V -> bool -> St -> Prop :=
  | head_first : forall it0 it x err, iter_init_post xs it0 -> next_post it0 x err it ->
      loop_head xs s0 [] it x err (cond_assign err x s0)
  | head_next : forall done it x s s' y err it',
      loop_head xs s0 done it x false s ->
      (body (it_prev it) s = Normal s' \/ body (it_prev it) s = Continue s') ->
      next_post it y err it' ->
      loop_head xs s0 (done ++ [x]) it' y err (cond_assign err y s').
End Iterators.
Arguments outcome St : clear implicits.
Arguments iter V : clear implicits.

(** * Comprehensions (expression.py) *)
Section Comprehensions.
  Context {A B C : Type}.

  (** _create_list_comp_inhale (194-249): [elem i x] says that __getitem__(iter, i) is
      x and [n] is the length of the iterated sequence. *)
  Definition listcomp_post (n : Z) (elem : Z -> A -> Prop) (f : A -> B) (r : list B) : Prop :=
    vlen r = n /\
    forall i x, i >= 0 /\ i < n -> elem i x -> vget r i = Some (f x).

  (** _create_filtered_list_comp_inhale (251-302). *)
  Definition listcomp_filter_post (n : Z) (elem : Z -> A -> Prop) (f : A -> B) (p : A -> bool)
      (r : list B) : Prop :=
    vlen r <= n /\
    forall i x, i >= 0 /\ i < n -> elem i x -> p x = true -> In (f x) r.

  (** _create_set_dict_comp_inhale (372-424) for sets. *)
  Definition setcomp_post (n : Z) (elem : Z -> A -> Prop) (f : A -> B) (p : A -> bool)
      (r : vset B) : Prop :=
    forall i x, i >= 0 /\ i < n -> elem i x -> p x = true -> r (f x).

  (** _dict_comp_contents (426-495). *)
  Definition dictcomp_post (n : Z) (elem : Z -> A -> Prop) (key : A -> B) (val : A -> C)
      (p : A -> bool) (r : vmap B C) : Prop :=
    forall i x, i >= 0 /\ i < n -> elem i x -> p x = true ->
      vdom r (key x) /\
      ((forall j y, j >= 0 /\ j < n -> elem j y -> i < j /\ p y = true -> key y <> key x) ->
       r (key x) = Some (val x)).
End Comprehensions.

(** The element access used for every source (232-234, 284-286, 399-401, 446-448): for
    lists, tuples, ranges and bytes it is the sequence element (SeqModel), for a
    dictionary it is dict___getitem__(d, i), the value stored under the key i. *)
Definition seq_elem {A} (s : list A) (i : Z) (x : A) : Prop := vget s i = Some x.
Definition dict_elem {W} (m : vmap Z W) (i : Z) (x : W) : Prop := dict_getitem_post m i x.

(** * Pure containers (seq.sil, pset.sil) *)

(** A boxed PSeq, PSet or PMultiset: typeof gives the element type, unbox the contents. *)
Record box (T P : Type) := { box_type : T; box_val : P }.
Arguments box_type {T P}. Arguments box_val {T P}.

Section PSeq.
  Context {T V : Type}.
  Notation pseq := (box T (list V)).

  (** PSeq___create__ (seq.sil:8-11). *)
  Definition pseq_create_post (prim : list V) (t : T) (r : pseq) : Prop :=
    box_type r = t /\ box_val r = prim.
  (** PSeq___contains__ (17-21), PSeq___len__ (32-35). *)
  Definition pseq_contains_post (s : pseq) (x : V) (b : bool) : Prop := b = true <-> In x (box_val s).
  Definition pseq_len (s : pseq) : Z := vlen (box_val s).
  (** PSeq___getitem__ (23-30). *)
  Definition pseq_getitem_pre (s : pseq) (i : Z) : Prop :=
    (i < 0 -> i >= - pseq_len s) /\ (i >= 0 -> i < pseq_len s).
  Definition pseq_getitem_post (s : pseq) (i : Z) (r : V) : Prop :=
    Some r = (if 0 <=? i then vget (box_val s) i else vget (box_val s) (pseq_len s + i)).
  (** PSeq_take (37-41), PSeq_drop (43-47), PSeq_update (49-53), PSeq___add__ (55-60). *)
  Definition pseq_take_post (s : pseq) (no : Z) (r : pseq) : Prop :=
    pseq_create_post (vtake no (box_val s)) (box_type s) r /\ (no = pseq_len s -> r = s).
  Definition pseq_drop_post (s : pseq) (no : Z) (r : pseq) : Prop :=
    pseq_create_post (vdrop no (box_val s)) (box_type s) r /\ (no = 0 -> r = s).
  Definition pseq_update_pre (s : pseq) (i : Z) : Prop := i >= 0 /\ i < pseq_len s.
  Definition pseq_update_post (s : pseq) (i : Z) (v : V) (r : pseq) : Prop :=
    pseq_create_post (vupd (box_val s) i v) (box_type s) r.
  Definition pseq_add_post (s o r : pseq) : Prop :=
    pseq_create_post (box_val s ++ box_val o) (box_type s) r.
  (** PSeq___eq__ (62-69). *)
  Definition pseq_eq_pre (s o : pseq) : Prop := box_type s = box_type o.
  Definition pseq_eq_post (s o : pseq) (b : bool) : Prop :=
    (b = true <-> box_val s = box_val o) /\ (b = true -> s = o).
End PSeq.

Section PSet.
  Context {T V : Type}.
  Notation pset := (box T (vset V)).

  (** PSet___create__ (pset.sil:8-11), PSet___contains__ (17-21), PSet___len__ (29-32),
      PSet___sil_seq__ (23-27), PSet___add__ (34-39), PSet___sub__ (41-46). *)
  Definition pset_create_post (prim : vset V) (t : T) (r : pset) : Prop :=
    box_type r = t /\ forall x, box_val r x <-> prim x.
  Definition pset_contains_post (s : pset) (x : V) (b : bool) : Prop := b = true <-> box_val s x.
  Definition pset_len_post (s : pset) (n : Z) : Prop := vcard (box_val s) n.
  Definition pset_sil_seq_post (s : pset) (r : list V) : Prop :=
    (forall x, In x r <-> box_val s x) /\ vcard (box_val s) (vlen r).
  Definition pset_add_post (s o r : pset) : Prop :=
    pset_create_post (fun x => box_val s x \/ box_val o x) (box_type s) r.
  Definition pset_sub_post (s o r : pset) : Prop :=
    pset_create_post (fun x => box_val s x /\ ~ box_val o x) (box_type s) r.
  (** translate_pset (contract.py:810-836): ExplicitSet of the arguments. *)
  Definition pset_literal_post (t : T) (args : list V) (r : pset) : Prop :=
    pset_create_post (fun x => In x args) t r.
End PSet.

Section PMultiset.
  Context {V : Type}.
  (** Multiset[Ref] as occurrence counts. *)
  Definition vmset := V -> Z.

  (** ExplicitMultiset (contract.py:838-863), union (sum) and setminus (cut off at 0),
      used by PMultiset___add__ and PMultiset___sub__ (pset.sil:86-98). *)
  Variable eq_dec : forall x y : V, {x = y} + {x <> y}.
  Definition mset_literal (args : list V) : vmset := fun x => Z.of_nat (count_occ eq_dec args x).
  Definition mset_add (a b : vmset) : vmset := fun x => a x + b x.
  Definition mset_sub (a b : vmset) : vmset := fun x => Z.max 0 (a x - b x).

  (** |m| = n *)
  Definition mcard (m : vmset) (n : Z) : Prop :=
    exists l, (forall x, m x = Z.of_nat (count_occ eq_dec l x)) /\ vlen l = n.
  (** PMultiset___sil_seq__ (75-79). *)
  Definition pmset_sil_seq_post (m : vmset) (r : list V) : Prop :=
    (forall x, In x r <-> m x > 0) /\ mcard m (vlen r).

  (** Domain __MSHelper (seq.sil:72-90): the axioms about __toMS. *)
  Definition toMS_axioms (toMS : list V -> vmset) : Prop :=
    (forall x, toMS [] x = 0) /\
    (forall t x, toMS [t] x = if eq_dec x t then 1 else 0) /\
    (forall s1 s2 x, toMS (s1 ++ s2) x = toMS s1 x + toMS s2 x) /\
    (forall s, mcard (toMS s) (vlen s)).
End PMultiset.
Arguments vmset V : clear implicits.

(** * Quantifiers (contract.py:921-1089) *)
Section Quantifiers.
  Context {V St : Type}.

  (** A domain: a type, or a container given by its element sequence
      (get_quantifier_lhs, common.py:566-614), possibly inside Old. *)
  Inductive domain := DType (t : V -> Prop) | DCont (elems : St -> list V) | DOld (elems : St -> list V).

  (** _create_quantifier_contains_expr (658-696). *)
  Definition contains_expr (old cur : St) (d : domain) (x : V) : Prop :=
    match d with
    | DType t => t x
    | DCont e => In x (e cur)
    | DOld e => In x (e old)
    end.

  (** The conjunction built in 965-980: ((c1 && c2) && c3) ... *)
  Fixpoint domains_lhs (old cur : St) (lhs : Prop) (ds : list domain) (xs : list V) : Prop :=
    match ds, xs with
    | d :: ds', x :: xs' => domains_lhs old cur (lhs /\ contains_expr old cur d x) ds' xs'
    | _, _ => lhs
    end.

  (** translate_forall (921-1010): one variable per domain; [var] is the last one after the
      loop of 934-943, so the type check of 1002-1006 is made for the last variable only. *)
  Definition forall_holds (old cur : St) (ds : list domain) (last_type : V -> Prop)
      (body : list V -> Prop) : Prop :=
    forall xs, length xs = length ds ->
      (forall x, nth_error xs (length ds - 1) = Some x -> last_type x) ->
      domains_lhs old cur True ds xs -> body xs.

  (** translate_exists (1012-1089). *)
  Definition exists_holds (old cur : St) (d : domain) (t : V -> Prop) (body : V -> Prop) : Prop :=
    exists x, t x /\ (contains_expr old cur d x /\ body x).
End Quantifiers.
Arguments domain V St : clear implicits.
