(** Property theorems for containers, iteration, comprehensions and quantifiers. *)
From Coq Require Import List ZArith Bool Lia ZifyBool Permutation.
From Verif Require Import IntModel IntSpec SeqModel SeqSpec SeqProofs ContModel ContSpec ContProofs.
Import ListNotations.
Open Scope Z_scope.

(** * C12: sets and dictionaries *)

(** After any history of add, remove and clear on a new set, provided == agrees with
    identity on the elements used: the contracts allow a run exactly if Python raises no
    KeyError, and then contents, length, truth value and the iterated sequence (up to its
    order) are Python's. The full property has no condition on ==. *)
Theorem C12_set_history_partial : forall V (eq : V -> V -> bool) (ops : list (set_op V)),
  eq_is_id eq (fun x => In x (flat_map set_arg ops)) ->
  match py_set_ops eq [] ops with
  | Some l => (exists s, set_run ops s) /\
              forall s, set_run ops s ->
                NoDup l /\ (forall x, s x <-> In x l) /\
                (forall n, set_len_post s n <-> n = len l) /\
                (forall b, set_bool_post s b <-> (b = true <-> l <> [])) /\
                (forall r, set_sil_seq_post s r <-> Permutation r l)
  | None => forall s, ~ set_run ops s
  end.
Proof. exact @set_run_ok. Qed.
Print Assumptions C12_set_history_partial.

Example C12_set_history_ex :
  eq_is_id Z.eqb (fun x => In x (flat_map set_arg [SetAdd 1; SetAdd 2; SetAdd 1; SetRemove 2])) /\
  py_set_ops Z.eqb [] [SetAdd 1; SetAdd 2; SetAdd 1; SetRemove 2] = Some [1] /\
  py_set_ops Z.eqb [] [SetAdd 1; SetRemove 1; SetRemove 1] = None.
Proof. split; [intros x y _ _; apply Z.eqb_eq|]. split; reflexivity. Qed.

(** Membership is Python's on the same condition. *)
Theorem C12_set_contains_partial : forall V (eq : V -> V -> bool) (U : V -> Prop) (s : vset V) l x b,
  eq_is_id eq U -> (forall y, In y l -> U y) -> U x -> (forall y, s y <-> In y l) ->
  (set_contains_post s x b <-> b = py_mem eq l x).
Proof. exact @set_contains_ok. Qed.
Print Assumptions C12_set_contains_partial.

Example C12_set_contains_ex : eq_is_id Z.eqb (fun _ => True) /\ py_mem Z.eqb [3; 5] 5 = true.
Proof. split; [intros x y _ _; apply Z.eqb_eq|reflexivity]. Qed.

(** Without the condition it fails: after s.add(True); s.add(1) Python's set has one
    element and the contract says two. *)
Theorem C12_set_equal_elements_refuted :
  exists ops l, py_set_ops int_eq [] ops = Some l /\ len l = 1 /\
    forall s, set_run ops s -> forall n, set_len_post s n -> n = 2.
Proof.
  exists [SetAdd (PyBool true); SetAdd (PyInt 1)], [PyBool true].
  split; [reflexivity|]. split; [reflexivity|].
  intros s (s0 & H0 & R) n Hn.
  inversion R as [|? ? s1 ? ? A1 R1]; subst. inversion R1 as [|? ? s2 ? ? A2 R2]; subst. inversion R2; subst.
  cbn in A1, A2. unfold set_add_post in *.
  assert (M : forall x, s x <-> In x [PyBool true; PyInt 1]).
  { intro x. rewrite A2, A1. simpl. split.
    - intros [[H|H]|H]; [now apply H0 in H|subst; auto|subst; auto].
    - intros [<-|[<-|[]]]; auto. }
  assert (N : NoDup [PyBool true; PyInt 1]).
  { constructor; [simpl; intros [H|[]]; discriminate|]. constructor; [intros []|constructor]. }
  apply (vcard_list s _ N M) in Hn. exact Hn.
Qed.
Print Assumptions C12_set_equal_elements_refuted.

(** After any history of d[k] = v on a new dictionary, provided == agrees with identity
    on the keys used: lookups, get, membership, length, truth value, keys(), the iterated
    sequence (up to its order) and values() (up to what its contract fixes) are Python's. *)
Theorem C12_dict_history_partial : forall K W (eq : K -> K -> bool),
  (forall x y : K, {x = y} + {x <> y}) ->
  forall (U : K -> Prop) (ops : list (K * W)), eq_is_id eq U -> (forall k, In k (map fst ops) -> U k) ->
  (exists m, dict_run ops m) /\
  forall m, dict_run ops m ->
    let d := py_dict_run eq ops in
    (forall k, U k ->
      (dict_getitem_pre m k <-> py_dict_get eq d k <> None) /\
      (forall v, dict_getitem_post m k v <-> py_dict_get eq d k = Some v) /\
      (forall r, dict_get_post m k r <-> r = py_dict_get eq d k) /\
      (forall b, dict_contains_post m k b <-> (b = true <-> py_dict_get eq d k <> None))) /\
    (forall n, dict_len_post m n <-> n = len d) /\
    (forall b, dict_bool_post m b <-> (b = true <-> d <> [])) /\
    (forall r, dict_keys_post m r <-> forall k, r k <-> In k (map fst d)) /\
    (forall r, dict_sil_seq_post m r <-> Permutation r (map fst d)) /\
    dict_values_post m (map snd d).
Proof. exact @dict_history. Qed.
Print Assumptions C12_dict_history_partial.

Example C12_dict_history_ex :
  eq_is_id Z.eqb (fun _ => True) /\ py_dict_run Z.eqb [(1, 10); (2, 20); (1, 30)] = [(1, 30); (2, 20)].
Proof. split; [intros x y _ _; apply Z.eqb_eq|reflexivity]. Qed.

(** Without the condition: d[True] = 7; d[1] = 8; Python has one key and d[True] is 8. *)
Theorem C12_dict_equal_keys_refuted :
  exists (ops : list (pyint * Z)), py_dict_get int_eq (py_dict_run int_eq ops) (PyBool true) = Some 8 /\
    forall m, dict_run ops m -> dict_getitem_post m (PyBool true) 7.
Proof.
  exists [(PyBool true, 7); (PyInt 1, 8)]. split; [reflexivity|].
  intros m (m0 & H0 & R).
  inversion R as [|? ? ? m1 ? ? A1 R1]; subst. inversion R1 as [|? ? ? m2 ? ? A2 R2]; subst. inversion R2; subst.
  unfold dict_getitem_post. destruct A2 as [_ A2]. rewrite A2 by discriminate. apply A1.
Qed.
Print Assumptions C12_dict_equal_keys_refuted.

(** keys() is a view in Python: a key stored after the call shows up in it. By the
    contracts the object returned by keys() is a set that the store leaves alone. *)
Theorem C12_keys_is_no_view_refuted :
  exists (h0 h1 h2 : dheap Z Z) d r k v,
    dict_keys_heap h0 d h1 r /\ dict_setitem_heap h1 d k v h2 /\
    (exists m, h_dict h2 d = Some m /\ vdom m k) /\
    (forall s, h_set h2 r = Some s -> ~ s k).
Proof.
  set (m0 := fun _ : Z => @None Z). set (m1 := fun k => if k =? 5 then Some 6 else None).
  set (s0 := fun _ : Z => False).
  exists {| h_dict := fun l => if Nat.eqb l 0 then Some m0 else None; h_set := fun _ => None |},
         {| h_dict := fun l => if Nat.eqb l 0 then Some m0 else None;
            h_set := fun l => if Nat.eqb l 1 then Some s0 else None |},
         {| h_dict := fun l => if Nat.eqb l 0 then Some m1 else None;
            h_set := fun l => if Nat.eqb l 1 then Some s0 else None |}, 0%nat, 1%nat, 5, 6.
  split; [|split; [|split]].
  - exists m0, s0. cbn. split; [reflexivity|]. split; [reflexivity|]. split; [reflexivity|].
    split; [intro k; unfold vdom, m0, s0; tauto|]. split; [reflexivity|].
    intros l N. destruct (Nat.eqb l 1) eqn:E; [apply Nat.eqb_eq in E; contradiction|reflexivity].
  - exists m0, m1. cbn. split; [reflexivity|]. split; [reflexivity|]. split.
    + split; [reflexivity|]. intros j N. unfold m1, m0. apply Z.eqb_neq in N. now rewrite N.
    + split; [|reflexivity]. intros l N. destruct l; [contradiction|reflexivity].
  - exists m1. split; [reflexivity|]. unfold vdom, m1. simpl. discriminate.
  - cbn. intros s [= <-]. unfold s0. tauto.
Qed.
Print Assumptions C12_keys_is_no_view_refuted.

(** * C13: iteration *)

(** A new iterator is at position 0; a call of next at position p < len yields the
    element at p and moves to p + 1; at the end it raises StopIteration, and stays
    there. Nothing else satisfies the contracts. *)
Theorem C13_iterator : forall V (xs : list V),
  (forall it, iter_init_post xs it <-> iter_at xs 0 false it) /\
  (forall p it, iter_at xs p false it -> p < len xs -> forall x err it',
     next_post it x err it' <-> err = false /\ at_ xs p x /\ iter_at xs (p + 1) false it') /\
  (forall e it, iter_at xs (len xs) e it -> forall x err it',
     next_post it x err it' <->
     err = true /\ iter_at xs (len xs) true it' /\ (xs <> [] -> at_ xs (len xs - 1) x)).
Proof. exact c13_iterator. Qed.
Print Assumptions C13_iterator.

Example C13_iterator_ex : iter_at [7; 8] 1 false {| it_list := [7; 8]; it_index := 1; it_prev := [] |} /\ 1 < len [7; 8].
Proof. repeat split; cbn; lia. Qed.

(** The encoding of for x in xs: body else: orelse runs as in Python: the target is
    assigned each element in order, Previous(x) is the list of the elements of the
    finished iterations, continue goes on with the next element, break leaves the
    loop without the else branch, return and exceptions leave the function. *)
Theorem C13_for_loop : forall V St (assign : V -> St -> St) (body : list V -> St -> outcome St)
    (orelse : St -> outcome St) (xs : list V) (s : St) (o : outcome St),
  inhabited V ->
  (for_run assign body orelse xs s o <-> o = py_for assign body orelse [] xs s).
Proof. exact @for_ok. Qed.
Print Assumptions C13_for_loop.

(** Summing until a negative element, with an else branch that adds 100. *)
Example C13_for_loop_ex :
  let assign := fun (x : Z) (s : Z * Z) => (x, snd s) in
  let body := fun (_ : list Z) (s : Z * Z) =>
    if fst s =? 0 then Continue s else if fst s <? 0 then Break s else Normal (fst s, snd s + fst s) in
  let orelse := fun s : Z * Z => Normal (fst s, snd s + 100) in
  inhabited Z /\
  py_for assign body orelse [] [1; 0; 2] (9, 0) = Normal (2, 103) /\
  py_for assign body orelse [] [1; -1; 2] (9, 0) = Normal (-1, 1) /\
  py_for assign body orelse [] [] (9, 0) = Normal (9, 100).
Proof. split; [exact (inhabits 0)|]. repeat split. Qed.

(** The default invariant of the encoding holds at every loop head that is reached, and
    Previous(x) is what the target has run through. *)
Theorem C13_for_invariant : forall V St (assign : V -> St -> St) (body : list V -> St -> outcome St)
    (xs : list V) (s0 : St) done it x err s,
  loop_head assign body xs s0 done it x err s ->
  for_invariant xs it x err /\ it_prev it = done /\
  exists rest, xs = done ++ rest /\ (err = true <-> rest = []).
Proof. exact @head_invariant. Qed.
Print Assumptions C13_for_invariant.

Example C13_for_invariant_ex :
  loop_head (fun x _ => x) (fun _ s => Normal s) [4; 5] 0 []
    {| it_list := [4; 5]; it_index := 1; it_prev := [] |} 4 false 4.
Proof.
  apply (head_first (fun (x : Z) (_ : Z) => x) (fun _ s => Normal s) [4; 5] 0 {| it_list := [4; 5]; it_index := 0; it_prev := [] |} _ 4 false).
  - repeat split.
  - apply (next_more [4; 5] 0); [repeat split; cbn; lia|cbn; lia|]. repeat split; cbn; lia.
Qed.

(** * C26: comprehensions *)

(** [f(x) for x in s] over a list, tuple, range or bytes: exactly Python's list. *)
Theorem C26_list : forall A B (f : A -> B) (s : list A) r,
  listcomp_post (vlen s) (seq_elem s) f r <-> r = py_listcomp f (fun _ => true) s.
Proof. exact @listcomp_exact. Qed.
Print Assumptions C26_list.

Example C26_list_ex : listcomp_post 2 (seq_elem [3; 4]) (fun x => x * x) [9; 16].
Proof. apply (listcomp_exact (fun x => x * x) [3; 4]). reflexivity. Qed.

(** [f(x) for x in s if p(x)]: what is assumed is true of Python's list. *)
Theorem C26_list_filter : forall A B (f : A -> B) p (s : list A),
  listcomp_filter_post (vlen s) (seq_elem s) f p (py_listcomp f p s).
Proof. exact @listcomp_filter_sound. Qed.
Print Assumptions C26_list_filter.

Example C26_list_filter_ex : py_listcomp (fun x => x + 1) Z.even [1; 2; 3; 4] = [3; 5].
Proof. reflexivity. Qed.

(** Set comprehensions, if == agrees with identity on the elements. *)
Theorem C26_set_partial : forall A B (eq : B -> B -> bool) (f : A -> B) p (s : list A),
  eq_is_id eq (fun y => In y (py_listcomp f p s)) ->
  exists l, py_setcomp eq f p s = Some l /\
    forall r, represents_set r l -> setcomp_post (vlen s) (seq_elem s) f p r.
Proof. exact @setcomp_sound. Qed.
Print Assumptions C26_set_partial.

Example C26_set_ex : eq_is_id Z.eqb (fun y => In y (py_listcomp (fun x => x / 2) Z.even [1; 2; 3; 4])) /\
  py_setcomp Z.eqb (fun x => x / 2) Z.even [1; 2; 2; 4] = Some [1; 2].
Proof. split; [intros x y _ _; apply Z.eqb_eq|reflexivity]. Qed.

(** Dict comprehensions, on the same condition for the keys: the last value wins. *)
Theorem C26_dict_partial : forall A B C (eq : B -> B -> bool) (key : A -> B) (val : A -> C) p (s : list A),
  eq_is_id eq (fun y => In y (py_listcomp key p s)) ->
  forall r, represents r (py_dictcomp eq key val p s) -> dictcomp_post (vlen s) (seq_elem s) key val p r.
Proof. exact @dictcomp_sound. Qed.
Print Assumptions C26_dict_partial.

Example C26_dict_ex : eq_is_id Z.eqb (fun y => In y (py_listcomp (fun x => x / 10) (fun _ => true) [11; 12; 20])) /\
  py_dictcomp Z.eqb (fun x => x / 10) (fun x => x) (fun _ => true) [11; 12; 20] = [(1, 12); (2, 20)].
Proof. split; [intros x y _ _; apply Z.eqb_eq|reflexivity]. Qed.

(** Without it: {k: v for k, v in [(1, 7), (True, 8)]} is {1: 8}, but 7 is assumed for 1. *)
Theorem C26_dict_equal_keys_refuted :
  exists (s : list (pyint * Z)) r,
    represents r (py_dictcomp int_eq fst snd (fun _ => true) s) /\
    ~ dictcomp_post (vlen s) (seq_elem s) fst snd (fun _ => true) r.
Proof.
  exists [(PyInt 1, 7); (PyBool true, 8)],
         (fun k => match k with PyInt 1 => Some 8 | _ => None end).
  split.
  - intros k v. cbn. split.
    + destruct k as [z|b]; [|discriminate]. destruct z as [|p|p]; try discriminate.
      destruct p; try discriminate. intros [= <-]. now left.
    + intros [[= <- <-]|[]]. reflexivity.
  - intro H. destruct (H 0 (PyInt 1, 7)) as [_ H1]; [unfold vlen; cbn; lia|reflexivity|reflexivity|].
    cbn in H1. assert (Some 8 = Some 7); [|congruence]. apply H1.
    intros j y Hj E [Hlt _]. unfold vlen in Hj. cbn in Hj. assert (j = 1) by lia. subst j. cbn in E.
    injection E as <-. cbn. discriminate.
Qed.
Print Assumptions C26_dict_equal_keys_refuted.

(** Over a dictionary the elements are looked up as d[i] instead of taken from its
    keys: [x for x in {0: 5}] is [0] in Python, and [5] is assumed. *)
Theorem C26_over_dict_refuted :
  exists (m : vmap Z Z) (d : list (Z * Z)), represents m d /\ dict_getitem_pre m 0 /\
    py_listcomp (fun x => x) (fun _ => true) (map fst d) = [0] /\
    forall r, listcomp_post (len d) (dict_elem m) (fun x => x) r -> r = [5].
Proof.
  exists (fun k => if k =? 0 then Some 5 else None), [(0, 5)].
  split; [|split; [|split]].
  - intros k v. cbn. split.
    + destruct (k =? 0) eqn:E; [|discriminate]. intros [= <-]. apply Z.eqb_eq in E. subst. now left.
    + intros [[= <- <-]|[]]. reflexivity.
  - unfold dict_getitem_pre, vdom. cbn. discriminate.
  - reflexivity.
  - intros r [L H]. specialize (H 0 5). unfold dict_elem, dict_getitem_post in H. cbn in H.
    unfold len, vlen in *. cbn in *. destruct r as [|a [|b r]]; cbn in *; try lia.
    specialize (H ltac:(lia) eq_refl). congruence.
Qed.
Print Assumptions C26_over_dict_refuted.

(** * C40: pure containers *)

(** PSeq: indexing as in Python, take, drop, update, + and == as documented. The
    clauses [result == self] (for take(len) and drop(0)) and [result ==> self == other] never
    conflict with the rest. *)
Theorem C40_pseq : forall T V (s o : box T (list V)),
  (forall i x, pseq_getitem_pre s i -> (pseq_getitem_post s i x <-> py_getitem (box_val s) i x)) /\
  (forall n r, pseq_take_post s n r <-> box_type r = box_type s /\ spec_take (box_val s) n (box_val r)) /\
  (forall n r, pseq_drop_post s n r <-> box_type r = box_type s /\ spec_drop (box_val s) n (box_val r)) /\
  (forall k v r, pseq_update_pre s k ->
     (pseq_update_post s k v r <-> box_type r = box_type s /\ spec_update (box_val s) k v (box_val r))) /\
  (forall r, pseq_add_post s o r <-> box_type r = box_type s /\ py_concat (box_val s) (box_val o) (box_val r)) /\
  (forall b, pseq_eq_pre s o -> (pseq_eq_post s o b <-> (b = true <-> box_val s = box_val o))).
Proof. exact c40_pseq. Qed.
Print Assumptions C40_pseq.

Example C40_pseq_ex :
  let s := {| box_type := tt; box_val := [3; 2; 5; 6] |} in
  pseq_getitem_pre s (-1) /\ pseq_update_pre s 2 /\ pseq_eq_pre s s /\
  pseq_take_post s 3 {| box_type := tt; box_val := [3; 2; 5] |} /\
  pseq_drop_post s 2 {| box_type := tt; box_val := [5; 6] |}.
Proof. cbn. unfold pseq_getitem_pre, pseq_update_pre, pseq_len, vlen. repeat split; cbn; try lia; intros; discriminate. Qed.

(** Every operation on pure sequences has a result, whatever the arguments. *)
Theorem C40_pseq_total : forall T V (s o : box T (list V)) n v,
  (exists r, pseq_take_post s n r) /\ (exists r, pseq_drop_post s n r) /\
  (exists r, pseq_update_post s n v r) /\ (exists r, pseq_add_post s o r) /\
  (pseq_getitem_pre s n -> exists x, pseq_getitem_post s n x).
Proof. exact c40_pseq_total. Qed.
Print Assumptions C40_pseq_total.

Example C40_pseq_total_ex : pseq_getitem_pre {| box_type := tt; box_val := [3; 2] |} (-2).
Proof. unfold pseq_getitem_pre, pseq_len, vlen. cbn. lia. Qed.

(** PSet: PSet(a, b, ...) contains the arguments and nothing else, and its length is the
    number of different arguments; + is union and - is difference. *)
Theorem C40_pset : forall T V, (forall x y : V, {x = y} + {x <> y}) ->
  forall (t : T) (a b : list V) (s o : box T (vset V)),
  pset_literal_post t a s -> pset_literal_post t b o ->
  (forall x r, pset_contains_post s x r <-> (r = true <-> In x a)) /\
  (forall l n, NoDup l -> (forall x, In x l <-> In x a) -> (pset_len_post s n <-> n = len l)) /\
  (forall r, pset_add_post s o r -> forall x, box_val r x <-> In x a \/ In x b) /\
  (forall r, pset_sub_post s o r -> forall x, box_val r x <-> In x a /\ ~ In x b) /\
  (forall l, pset_sil_seq_post s l <-> NoDup l /\ forall x, In x l <-> In x a).
Proof. exact c40_pset. Qed.
Print Assumptions C40_pset.

Example C40_pset_ex : pset_literal_post tt [1; 2; 1] {| box_type := tt; box_val := fun x => x = 1 \/ x = 2 |}.
Proof. split; [reflexivity|]. intro x. cbn. intuition. Qed.

(** PMultiset: + adds and - subtracts the numbers of occurrences (not below 0), the
    length counts repetitions. *)
Theorem C40_pmultiset : forall V (dec : forall x y : V, {x = y} + {x <> y}) (a b : list V),
  (forall x, mset_add (mset_literal dec a) (mset_literal dec b) x = Z.of_nat (count_occ dec (a ++ b) x)) /\
  (forall x, mset_sub (mset_literal dec a) (mset_literal dec b) x =
             Z.of_nat (count_occ dec a x - count_occ dec b x)) /\
  (forall n, mcard dec (mset_literal dec a) n <-> n = len a) /\
  pmset_sil_seq_post dec (mset_literal dec a) a.
Proof. exact c40_pmultiset. Qed.
Print Assumptions C40_pmultiset.

Example C40_pmultiset_ex :
  mset_sub (mset_literal Z.eq_dec [1; 1; 2]) (mset_literal Z.eq_dec [1; 2; 2]) 1 = 1 /\
  mset_sub (mset_literal Z.eq_dec [1; 1; 2]) (mset_literal Z.eq_dec [1; 2; 2]) 2 = 0.
Proof. split; reflexivity. Qed.

(** ToMS: the axioms are consistent and fix the number of occurrences of every element. *)
Theorem C40_to_multiset : forall V (dec : forall x y : V, {x = y} + {x <> y}) (toMS : list V -> vmset V),
  toMS_axioms dec toMS <-> forall l x, toMS l x = Z.of_nat (count_occ dec l x).
Proof. exact @toMS_unique. Qed.
Print Assumptions C40_to_multiset.

Example C40_to_multiset_ex : exists toMS, toMS_axioms Z.eq_dec toMS /\ toMS [4; 5; 4] 4 = 2.
Proof.
  exists (fun l x => Z.of_nat (count_occ Z.eq_dec l x)). split; [|reflexivity].
  apply toMS_unique. reflexivity.
Qed.

(** * C41: quantifiers *)

(** Forall and Forall2 ... Forall6 hold iff the body holds for all tuples of elements of the
    domains, provided the elements of the last domain have the type of its variable. *)
Theorem C41_forall : forall V St (old cur : St) (ds : list (domain V St)) (last : V -> Prop) body,
  (forall d x, nth_error ds (length ds - 1) = Some d -> ranges_over old cur d x -> last x) ->
  (forall_holds old cur ds last body <-> py_all old cur ds body).
Proof. exact @forall_ok. Qed.
Print Assumptions C41_forall.

Example C41_forall_ex :
  let ds := [DType (fun x => 0 <= x); DOld (fun s : list Z => s)] in
  (forall d x, nth_error ds (length ds - 1) = Some d -> ranges_over [1; 2] [] d x -> True) /\
  py_all [1; 2] [] ds (fun xs => match xs with [x; y] => 0 < x + y | _ => False end).
Proof.
  split; [auto|]. cbn. intros x Hx y [[|[|i]] Hi]; cbn in Hi; [injection Hi as <-; lia|injection Hi as <-; lia|].
  destruct i; discriminate.
Qed.

(** Exists holds iff the body holds for some element of the domain. *)
Theorem C41_exists : forall V St (old cur : St) (d : domain V St) (t : V -> Prop) body,
  (forall x, ranges_over old cur d x -> t x) ->
  (exists_holds old cur d t body <-> exists x, ranges_over old cur d x /\ body x).
Proof. exact @exists_ok. Qed.
Print Assumptions C41_exists.

Example C41_exists_ex :
  (forall x, ranges_over [] [1; 2] (DCont (fun s : list Z => s)) x -> 0 < x) /\
  exists x, ranges_over [] [1; 2] (DCont (fun s : list Z => s)) x /\ x = 2.
Proof.
  split; [|exists 2; split; [now exists 1%nat|reflexivity]].
  intros x [[|[|i]] Hi]; cbn in Hi; [injection Hi as <-; lia|injection Hi as <-; lia|]. destruct i; discriminate.
Qed.
