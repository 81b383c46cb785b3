(** Property theorems C08-C11, C33, C34, C39: sequences. *)
From Coq Require Import List ZArith Bool.
From Verif Require Import IntModel SeqModel SeqSpec SeqProofs.
Import ListNotations.
Open Scope Z_scope.

(** * C08: slicing *)

(** l[i:j] of a list: a new list with Python's elements; nothing else changes. *)
Theorem C08_list_slice : forall (V : Type) (h : heap (V:=V)) self k h' res,
  list_getitem_slice_post h self k h' res <->
  creates h self h' res (fun s r => r = py_slice s (internal_start k) (internal_stop k)).
Proof. intros V. exact heap_slice. Qed.
Print Assumptions C08_list_slice.

Definition heap1 : heap (V:=Z) := fun l => match l with 0%nat => Some [10; 11; 12; 13] | _ => None end.
Definition heap1' : heap (V:=Z) :=
  fun l => match l with 0%nat => Some [10; 11; 12; 13] | 1%nat => Some [12] | _ => None end.

Example C08_list_slice_ex : list_getitem_slice_post heap1 0 {| internal_start := Some (-2); internal_stop := Some 3 |} heap1' 1.
Proof. exists [10; 11; 12; 13]. repeat split. intros [|[|l]] N; try reflexivity. exfalso. apply N. left. reflexivity. Qed.

Theorem C08_bytearray_slice : forall s k r,
  ba_slice_post s k r <-> r = py_slice s (internal_start k) (internal_stop k).
Proof. exact c08_bytearray_slice. Qed.
Print Assumptions C08_bytearray_slice.

Example C08_bytearray_slice_ex :
  ba_slice_post [1; 2; 3] {| internal_start := Some (-100); internal_stop := Some (-1) |} [1; 2].
Proof. reflexivity. Qed.

(** False for tuples, ranges and bytes: in (1, 2, 3)[2:1] the precondition holds,
    Python returns the empty tuple, and the contract has no result at all. *)
Theorem C08_tuple_slice_refuted : exists (t : list Z) k, tuple_slice_pre t k /\
  py_slice t (internal_start k) (internal_stop k) = [] /\ ~ satisfiable (tuple_slice_post t k).
Proof.
  exists [1; 2; 3], {| internal_start := Some 2; internal_stop := Some 1 |}.
  split; [repeat split; discriminate|]. split; [reflexivity|].
  intros [r P]. revert P. apply tuple_slice_unsat; [repeat split; discriminate|reflexivity].
Qed.
Print Assumptions C08_tuple_slice_refuted.

Theorem C08_range_slice_refuted : exists (t : range) k, range_slice_pre t k /\
  py_slice t (internal_start k) (internal_stop k) = [] /\ ~ satisfiable (range_slice_post t k).
Proof. exact C08_tuple_slice_refuted. Qed.
Print Assumptions C08_range_slice_refuted.

Theorem C08_bytes_slice_refuted : exists (t : bytes) k, bytes_slice_pre t k /\
  py_slice t (internal_start k) (internal_stop k) = [] /\ ~ satisfiable (bytes_slice_post t k).
Proof.
  exists (map PyInt [1; 2; 3]), {| internal_start := Some 2; internal_stop := Some 1 |}.
  split; [repeat split; discriminate|]. split; [reflexivity|].
  intros [r P]. revert P. apply tuple_slice_unsat; [repeat split; discriminate|reflexivity].
Qed.
Print Assumptions C08_bytes_slice_refuted.

(** Missing: start after stop (refuted above); bounds beyond the length are rejected
    by the precondition. *)
Theorem C08_tuple_slice_partial : forall (V : Type) (t : list V) k r, tuple_slice_pre t k ->
  slice_start k (vlen t) <= slice_stop k (vlen t) ->
  (tuple_slice_post t k r <-> r = py_slice t (internal_start k) (internal_stop k)).
Proof. intros V. exact tuple_slice_ok. Qed.
Print Assumptions C08_tuple_slice_partial.

Theorem C08_range_slice_partial : forall (t : range) k r, range_slice_pre t k ->
  slice_start k (vlen t) <= slice_stop k (vlen t) ->
  (range_slice_post t k r <-> r = py_slice t (internal_start k) (internal_stop k)).
Proof. exact tuple_slice_ok. Qed.
Print Assumptions C08_range_slice_partial.

Theorem C08_bytes_slice_partial : forall (t : bytes) k r, bytes_slice_pre t k ->
  slice_start k (vlen t) <= slice_stop k (vlen t) ->
  (bytes_slice_post t k r <-> r = py_slice t (internal_start k) (internal_stop k)).
Proof. exact tuple_slice_ok. Qed.
Print Assumptions C08_bytes_slice_partial.

Example C08_tuple_slice_ex : tuple_slice_pre [1; 2; 3] {| internal_start := Some (-2); internal_stop := None |} /\
  tuple_slice_post [1; 2; 3] {| internal_start := Some (-2); internal_stop := None |} [2; 3].
Proof. repeat split; discriminate. Qed.

(** * C09: list operations *)

Theorem C09_getitem : forall (V : Type) (l : list V) k x, list_getitem_pre l k ->
  (list_getitem_post l k x <-> py_getitem l k x).
Proof. intros V. exact getitem_iff. Qed.
Print Assumptions C09_getitem.

(** The precondition demands exactly that Python raises no IndexError. *)
Theorem C09_getitem_precondition : forall (V : Type) (l : list V) k,
  list_getitem_pre l k <-> exists x, py_getitem l k x.
Proof. intros V. exact getitem_pre_iff. Qed.
Print Assumptions C09_getitem_precondition.

Example C09_getitem_ex : list_getitem_pre [10; 11; 12] (-1) /\ list_getitem_post [10; 11; 12] (-1) 12.
Proof. repeat split; intros; try reflexivity; discriminate. Qed.

Theorem C09_setitem : forall (V : Type) (h : heap (V:=V)) self k x h' s, h self = Some s ->
  list_setitem_pre s k ->
  (list_setitem_post h self k x h' <-> updates h self h' (fun s s' => py_setitem s k x s')).
Proof. intros V. exact heap_setitem. Qed.
Print Assumptions C09_setitem.

Example C09_setitem_ex : heap1 0%nat = Some [10; 11; 12; 13] /\ list_setitem_pre [10; 11; 12; 13] 2.
Proof. repeat split; discriminate. Qed.

Theorem C09_insert : forall (V : Type) (h : heap (V:=V)) self k x h',
  list_insert_post h self k x h' <-> updates h self h' (fun s s' => py_insert s k x s').
Proof. intros V. exact heap_insert. Qed.
Print Assumptions C09_insert.

Example C09_insert_ex : list_insert_post (fun l => match l with 0%nat => Some [1; 2; 3] | _ => None end) 0 (-1) 9
  (fun l => match l with 0%nat => Some [1; 2; 9; 3] | _ => None end).
Proof. exists [1; 2; 3]. repeat split. intros [|l] N; [exfalso; apply N; left|]; reflexivity. Qed.

Theorem C09_append : forall (V : Type) (h : heap (V:=V)) self x h',
  list_append_post h self x h' <-> updates h self h' (fun s s' => py_append s x s').
Proof. intros V. exact heap_append. Qed.
Print Assumptions C09_append.

Theorem C09_extend : forall (V : Type) (h : heap (V:=V)) self other h' o,
  list_extend_pre self other -> h other = Some o ->
  (list_extend_post h self other h' <-> updates h self h' (fun s s' => py_concat s o s')).
Proof. intros V. exact heap_extend. Qed.
Print Assumptions C09_extend.

Theorem C09_add : forall (V : Type) (h : heap (V:=V)) self other h' res o, h other = Some o ->
  (list_add_post h self other h' res <-> creates h self h' res (fun s r => py_concat s o r)).
Proof. intros V. exact heap_add. Qed.
Print Assumptions C09_add.

Theorem C09_mul : forall (V : Type) (h : heap (V:=V)) self n h' res,
  list_mul_post h self n h' res <-> creates h self h' res (fun s r => r = py_repeat s n).
Proof. intros V. exact heap_mul. Qed.
Print Assumptions C09_mul.

Theorem C09_copy : forall (V : Type) (h : heap (V:=V)) self h' res,
  list_copy_post h self h' res <-> creates h self h' res (fun s r => r = s).
Proof. intros V. exact heap_copy. Qed.
Print Assumptions C09_copy.

Example C09_append_ex : list_append_post heap1 0 14
  (fun l => match l with 0%nat => Some [10; 11; 12; 13; 14] | _ => None end).
Proof. exists [10; 11; 12; 13]. repeat split. intros [|l] N; [exfalso; apply N; left|]; reflexivity. Qed.

Definition heap2 : heap (V:=Z) :=
  fun l => match l with 0%nat => Some [1; 2] | 1%nat => Some [3] | _ => None end.
Example C09_extend_ex : list_extend_pre 0 1 /\ list_extend_post heap2 0 1
  (fun l => match l with 0%nat => Some [1; 2; 3] | 1%nat => Some [3] | _ => None end).
Proof.
  split; [discriminate|]. exists [1; 2], [3]. repeat split.
  intros [|l] N; [exfalso; apply N; left; reflexivity|]. destruct l; reflexivity.
Qed.
Example C09_mul_ex : list_mul_post heap2 0 2
  (fun l => match l with 2%nat => Some [1; 2; 1; 2] | l => heap2 l end) 2.
Proof.
  apply heap_mul. exists [1; 2], [1; 2; 1; 2]. repeat split.
  intros [|[|[|l]]] N; try reflexivity. exfalso. apply N. reflexivity.
Qed.

Theorem C09_eq : forall (V : Type) (eq : V -> V -> bool) (l o : list V) b,
  list_eq_post eq l o b <-> (b = true <-> py_seq_eq eq l o).
Proof. intros V. exact list_eq_ok. Qed.
Print Assumptions C09_eq.

Example C09_eq_ex : list_eq_post int_eq [PyInt 1; PyInt 2] [PyBool true; PyInt 2] true.
Proof. apply list_eq_ok. split; [intros _; repeat constructor|reflexivity]. Qed.

(** A list is true exactly when it has elements. *)
Theorem C09_truth_value : forall (V : Type) (l : list V), list_bool l = true <-> l <> [].
Proof. exact list_bool_ok. Qed.
Print Assumptions C09_truth_value.

Example C09_truth_value_ex : list_bool [PyBool false] = true.
Proof. reflexivity. Qed.

(** False: 1 in [True] is True in Python, the contract says False. *)
Theorem C09_contains_refuted : exists l x,
  list_contains_post l x false /\ py_contains int_eq l x.
Proof.
  exists [PyBool true], (PyInt 1). split.
  - split; [discriminate|]. intros [H|[]]. discriminate.
  - exists (PyBool true). split; [left; reflexivity|right; reflexivity].
Qed.
Print Assumptions C09_contains_refuted.

(** False: [True, 1].index(1) is 0 in Python, the contract says 1. *)
Theorem C09_index_refuted : exists l x,
  list_index_post l x 1 /\ py_index int_eq l x 0.
Proof.
  exists [PyBool true; PyInt 1], (PyInt 1). split.
  - repeat split; try discriminate. intros j [J1 J2]. destruct j as [|p|p]; [discriminate| |destruct J1; reflexivity].
    exfalso. destruct p; discriminate.
  - split; [exists (PyBool true); split; [split; [discriminate|reflexivity]|right; reflexivity]|].
    intros j y J [J0 _]. exfalso. apply J0. destruct j; try discriminate. reflexivity.
Qed.
Print Assumptions C09_index_refuted.

(** False: [True, 1].remove(1) leaves [1] in Python, the contract says [True]. *)
Theorem C09_remove_refuted : exists h h' : heap,
  list_remove_pre [PyBool true; PyInt 1] (PyInt 1) /\
  h 0%nat = Some [PyBool true; PyInt 1] /\ list_remove_post h 0 (PyInt 1) h' /\
  h' 0%nat = Some [PyBool true] /\
  py_remove int_eq [PyBool true; PyInt 1] (PyInt 1) [PyInt 1].
Proof.
  exists (fun l => match l with 0%nat => Some [PyBool true; PyInt 1] | _ => None end),
    (fun l => match l with 0%nat => Some [PyBool true] | _ => None end).
  split; [right; left; reflexivity|]. split; [reflexivity|]. split; [|split; [reflexivity|]].
  - exists [PyBool true; PyInt 1], [PyBool true]. repeat split.
    + exists 1. repeat split; try discriminate. intros j [J1 J2]. destruct j as [|p|p]; [discriminate| |destruct J1; reflexivity].
      exfalso. destruct p; discriminate.
    + intros [|l] N; [exfalso; apply N; left|]; reflexivity.
  - exists [], (PyBool true), [PyInt 1]. repeat split; [right; reflexivity|]. intros z [].
Qed.
Print Assumptions C09_remove_refuted.

(** Missing: elements that are equal to the argument without being identical to it. *)
Theorem C09_contains_partial : forall (V : Type) (eq : V -> V -> bool) (l : list V) x b,
  eq_is_identity eq l x ->
  (list_contains_post l x b <-> (b = true <-> py_contains eq l x)).
Proof. intros V. exact contains_ok. Qed.
Print Assumptions C09_contains_partial.

Theorem C09_index_partial : forall (V : Type) (eq : V -> V -> bool) (l : list V) x i,
  eq_is_identity eq l x ->
  (list_index_post l x i <-> py_index eq l x i).
Proof. intros V. exact index_ok. Qed.
Print Assumptions C09_index_partial.

Theorem C09_remove_partial : forall (V : Type) (eq : V -> V -> bool) (h : heap) self x h',
  (forall s, h self = Some s -> eq_is_identity eq s x) ->
  (list_remove_post h self x h' <-> updates h self h' (fun s s' => py_remove eq s x s')).
Proof. intros V. exact heap_remove. Qed.
Print Assumptions C09_remove_partial.

Example C09_identity_ex : eq_is_identity int_eq [PyInt 1; PyInt 2; PyInt 1] (PyInt 2).
Proof. intros y I E. cbn in I. intuition subst; try discriminate; reflexivity. Qed.

(** False: l.reverse() changes l in Python and returns None; the contract leaves
    l alone and returns a reversed copy. *)
Theorem C09_reverse_refuted : exists (h h' : heap (V:=Z)) res,
  list_reverse_post h 0 h' res /\ h 0%nat = Some [1; 2] /\ h' 0%nat = Some [1; 2].
Proof.
  exists (fun l => match l with 0%nat => Some [1; 2] | _ => None end),
    (fun l => match l with 0%nat => Some [1; 2] | 1%nat => Some [2; 1] | _ => None end), 1%nat.
  split; [|split; reflexivity]. apply heap_reverse. exists [1; 2], [2; 1]. repeat split.
  intros [|[|l]] N; try reflexivity. exfalso. apply N. reflexivity.
Qed.
Print Assumptions C09_reverse_refuted.

(** What does hold: the returned list is the reverse. *)
Theorem C09_reverse_partial : forall (V : Type) (h : heap (V:=V)) self h' res,
  list_reverse_post h self h' res <-> creates h self h' res (fun s r => r = rev s).
Proof. intros V. exact heap_reverse. Qed.
Print Assumptions C09_reverse_partial.

(** * C10: ranges *)

(** A translated call of range whose precondition holds denotes Python's range. *)
Theorem C10_range_call : forall args pre post, translate_range args = Some (pre, post) -> pre ->
  exists start stop step, (args = [stop] /\ start = 0 /\ step = 1 \/ args = [start; stop] /\ step = 1 \/
                           args = [start; stop; step]) /\
  forall r, post r <-> py_range start stop step r.
Proof. exact translate_range_ok. Qed.
Print Assumptions C10_range_call.

Example C10_range_call_ex : py_range 1 8 3 [1; 4; 7] /\ range_create_step_pre 1 8 3.
Proof.
  split; [|discriminate].
  apply range_step_ok; [discriminate|]. split; [reflexivity|].
  intros i [I J]. destruct i as [|[[p|p|]|[p|p|]|]|p]; try reflexivity; try discriminate.
  all: exfalso; try (destruct p; discriminate); apply I; reflexivity.
Qed.

Theorem C10_range_getitem : forall (r : range) k x, range_getitem_pre r k ->
  (range_getitem_post r k x <-> py_getitem r k x).
Proof. exact getitem2_iff. Qed.
Print Assumptions C10_range_getitem.

Theorem C10_range_eq : forall (r o : range) b, range_eq_post r o b <-> (b = true <-> r = o).
Proof. exact c10_range_eq. Qed.
Print Assumptions C10_range_eq.

(** False: True in range(3) is True in Python; the contract says False. *)
Theorem C10_range_contains_refuted : exists r x, range_contains_post r x false /\
  py_contains int_eq (map PyInt r) x /\ forall b, range_contains_post r x b -> b = false.
Proof.
  exists [0; 1; 2], (PyBool true). split; [|split].
  - exists (map PyInt [0; 1; 2]). split; [apply boxed_prog|]. split; [discriminate|].
    cbn. intros H. intuition discriminate.
  - exists (PyInt 1). split; [right; left; reflexivity|right; reflexivity].
  - intros b. apply range_contains_bool_false.
Qed.
Print Assumptions C10_range_contains_refuted.

(** Missing: bool operands. *)
Theorem C10_range_contains_partial : forall r z b,
  range_contains_post r (PyInt z) b <-> (b = true <-> In z r).
Proof. exact range_contains_ok. Qed.
Print Assumptions C10_range_contains_partial.

(** * C11: tuple literals *)

(** False: a literal with seven elements is accepted and its contract has no result. *)
Theorem C11_seven_elements_refuted : exists (args : list Z) post,
  create_tuple args = Some post /\ ~ satisfiable post.
Proof.
  exists [1; 2; 3; 4; 5; 6; 7], (tuple_create_post [1; 2; 3; 4; 5; 6; 7]). split; [reflexivity|].
  intros [t T]. revert T. apply tuple_create_unsat. discriminate.
Qed.
Print Assumptions C11_seven_elements_refuted.

(** Exactly the literals with seven to nine elements are affected. *)
Theorem C11_accepted_literals : forall (V : Type) (args : list V) post, create_tuple args = Some post ->
  len args <= 9 /\ (satisfiable post <-> len args <= 6).
Proof. exact c11_accepted_literals. Qed.
Print Assumptions C11_accepted_literals.

(** Missing: seven to nine elements. *)
Theorem C11_tuple_literal_partial : forall (V : Type) (args : list V) t, len args <= 6 ->
  (tuple_create_post args t <-> t = args).
Proof. intros V. exact tuple_create_ok. Qed.
Print Assumptions C11_tuple_literal_partial.

Example C11_tuple_literal_ex : create_tuple [1; 2; 3] = Some (tuple_create_post [1; 2; 3]) /\
  tuple_create_post [1; 2; 3] [1; 2; 3].
Proof. split; [reflexivity|]. apply tuple_create_ok; [discriminate|reflexivity]. Qed.

(** * C39: tuple operations *)

Theorem C39_tuple_getitem : forall (V : Type) (t : list V) k x, tuple_getitem_pre t k ->
  (tuple_getitem_post t k x <-> py_getitem t k x).
Proof. intros V. exact getitem2_iff. Qed.
Print Assumptions C39_tuple_getitem.

Theorem C39_tuple_eq : forall (V : Type) (eq : V -> V -> bool) (t o : list V) b,
  tuple_eq_post eq t o b <-> (b = true <-> py_seq_eq eq t o).
Proof. intros V. exact tuple_eq_ok. Qed.
Print Assumptions C39_tuple_eq.

Example C39_tuple_eq_ex : tuple_eq_post int_eq [PyInt 1; PyInt 2] [PyBool true; PyInt 2] true.
Proof. apply tuple_eq_ok. split; [intros _; repeat constructor|reflexivity]. Qed.

Theorem C39_tuple_contains_refuted : exists t x,
  tuple_contains_post t x false /\ py_contains int_eq t x.
Proof. exact C09_contains_refuted. Qed.
Print Assumptions C39_tuple_contains_refuted.

Theorem C39_tuple_contains_partial : forall (V : Type) (eq : V -> V -> bool) (t : list V) x b,
  eq_is_identity eq t x ->
  (tuple_contains_post t x b <-> (b = true <-> py_contains eq t x)).
Proof. intros V. exact contains_ok. Qed.
Print Assumptions C39_tuple_contains_partial.

(** * C33: strings *)

Theorem C33_value_and_length : forall e r, str_denotes e r ->
  str_val r = py_str e /\ str_len r = len (py_str e).
Proof. exact str_denotes_value. Qed.
Print Assumptions C33_value_and_length.

Theorem C33_denotes : forall e, exists r, str_denotes e r.
Proof. exact str_denotes_sat. Qed.
Print Assumptions C33_denotes.

Theorem C33_eq : forall e1 e2 r1 r2 b, str_denotes e1 r1 -> str_denotes e2 r2 ->
  (str_eq_post r1 r2 b <-> (b = true <-> py_str e1 = py_str e2)).
Proof. exact str_eq_ok. Qed.
Print Assumptions C33_eq.

Theorem C33_bool : forall e r b, str_denotes e r -> (str_bool_post r b <-> (b = true <-> py_str e <> [])).
Proof. exact str_bool_ok. Qed.
Print Assumptions C33_bool.

(** "ab" + "c" == "a" + "bc" *)
Example C33_ex : str_denotes (SAdd (SLit [97; 98]) (SLit [99])) {| str_len := 3; str_val := [97; 98; 99] |} /\
  str_denotes (SAdd (SLit [97]) (SLit [98; 99])) {| str_len := 3; str_val := [97; 98; 99] |}.
Proof.
  split.
  - apply den_add with (ra := {| str_len := 2; str_val := [97; 98] |}) (rb := {| str_len := 1; str_val := [99] |});
      [constructor| constructor|]; repeat split; discriminate.
  - apply den_add with (ra := {| str_len := 1; str_val := [97] |}) (rb := {| str_len := 2; str_val := [98; 99] |});
      [constructor| constructor|]; repeat split; discriminate.
Qed.

(** * C34: byte containers *)

Theorem C34_bytes_literal : forall bs r, translate_bytes bs r <-> r = map PyInt bs.
Proof. exact c34_bytes_literal. Qed.
Print Assumptions C34_bytes_literal.

Theorem C34_bytes_add : forall a b r, bytes_add_post a b r <-> py_concat a b r.
Proof. exact c34_bytes_add. Qed.
Print Assumptions C34_bytes_add.

Theorem C34_bytes_mul : forall s n r, bytes_mul_pre n -> (bytes_mul_post s n r <-> r = py_repeat s n).
Proof. exact bytes_mul_ok. Qed.
Print Assumptions C34_bytes_mul.

Theorem C34_bytes_join : forall sep parts r, bytes_join_post sep parts r <-> r = py_join sep parts.
Proof. exact bytes_join_ok. Qed.
Print Assumptions C34_bytes_join.

Example C34_bytes_ex : bytes_mul_pre 3 /\ bytes_mul_post [PyInt 1; PyInt 2] 3 (map PyInt [1; 2; 1; 2; 1; 2]) /\
  bytes_join_post [PyInt 0] [[PyInt 1]; [PyInt 2]; [PyInt 3]] (map PyInt [1; 0; 2; 0; 3]).
Proof. repeat split. discriminate. Qed.

Theorem C34_bytes_bool : forall b : bytes, bytes_bool b = true <-> b <> [].
Proof. exact bytes_bool_ok. Qed.
Print Assumptions C34_bytes_bool.

Theorem C34_bytes_getitem : forall (b : bytes) k x, bytes_getitem_pre b k ->
  (bytes_getitem_post b k x <-> py_getitem b k x).
Proof. exact getitem2_iff. Qed.
Print Assumptions C34_bytes_getitem.

(** Every bytearray that a program can build holds numbers from 0 to 255 only, for
    every history of operations. *)
Theorem C34_bytearray_bounds : forall s, ba_reach s -> forall x, In x s -> 0 <= x < 256.
Proof. exact ba_reach_bytes. Qed.
Print Assumptions C34_bytearray_bounds.

(** And every list of such numbers can be built. *)
Theorem C34_bytearray_all : forall s, (forall x, In x s -> 0 <= x < 256) -> ba_reach s.
Proof. exact ba_reach_all. Qed.
Print Assumptions C34_bytearray_all.

Example C34_reach_ex : ba_reach [0; 0; 255].
Proof.
  apply reach_append with (s := [0; 0]) (v := PyInt 255); [|reflexivity|reflexivity].
  apply reach_int with (n := 2). apply ba_from_int_ok; [discriminate|reflexivity].
Qed.

(** Hence the promise of bytearray[k] is consistent and exact. *)
Theorem C34_bytearray_getitem : forall s k x, ba_reach s -> ba_getitem_pre s k ->
  (ba_getitem_post s k x <-> py_getitem s k x).
Proof. exact ba_getitem_ok. Qed.
Print Assumptions C34_bytearray_getitem.

Theorem C34_bytearray_from_list : forall vs r, ba_from_list_post vs r <-> r = map unbox vs.
Proof. exact ba_from_list_ok. Qed.
Print Assumptions C34_bytearray_from_list.

Theorem C34_bytearray_setitem : forall s k v s', ba_setitem_pre s k v ->
  (ba_setitem_post s k v s' <-> py_setitem s k (unbox v) s').
Proof. exact c34_bytearray_setitem. Qed.
Print Assumptions C34_bytearray_setitem.

Theorem C34_bytearray_append : forall s v s', ba_append_post s v s' <-> py_append s (unbox v) s'.
Proof. exact c34_bytearray_append. Qed.
Print Assumptions C34_bytearray_append.

Theorem C34_bytearray_extend : forall s o s', ba_extend_post s o s' <-> py_concat s o s'.
Proof. exact c34_bytearray_extend. Qed.
Print Assumptions C34_bytearray_extend.

Theorem C34_bytearray_reverse : forall s s', ba_reverse_post s s' <-> s' = rev s.
Proof. exact c34_bytearray_reverse. Qed.
Print Assumptions C34_bytearray_reverse.

Theorem C34_bytearray_contains : forall s x b,
  ba_contains_post s x b <-> (b = true <-> py_contains int_eq (map PyInt s) x).
Proof. exact c34_bytearray_contains. Qed.
Print Assumptions C34_bytearray_contains.

(** False: bytearray(-1) raises ValueError in Python; the contract has no
    precondition and no result. *)
Theorem C34_bytearray_negative_refuted : exists n, ~ satisfiable (ba_from_int_post n).
Proof. exists (-1). intros [r P]. revert P. apply ba_from_int_unsat. reflexivity. Qed.
Print Assumptions C34_bytearray_negative_refuted.

(** Missing: negative lengths. *)
Theorem C34_bytearray_from_int_partial : forall n r, 0 <= n ->
  (ba_from_int_post n r <-> r = repeat 0 (Z.to_nat n)).
Proof. exact ba_from_int_ok. Qed.
Print Assumptions C34_bytearray_from_int_partial.

(** False: PByteSeq updates with a number that is no byte have no result although
    the precondition holds. *)
Theorem C34_byteseq_update_refuted : exists s k v, pbs_wf s /\ pbs_update_pre s k /\
  ~ satisfiable (pbs_update_post s k v).
Proof.
  exists [7], 0, 300. split; [|split].
  - intros i [<-|[]]. reflexivity.
  - split; [discriminate|reflexivity].
  - intros [r [H _]]. discriminate.
Qed.
Print Assumptions C34_byteseq_update_refuted.

Theorem C34_byteseq_create_refuted : exists values, ~ satisfiable (pbs_create_post values).
Proof. exists [300]. intros [r [W ->]]. specialize (W 300 (or_introl eq_refl)). discriminate. Qed.
Print Assumptions C34_byteseq_create_refuted.

(** Missing: values that are no bytes. *)
Theorem C34_byteseq_partial : forall s, pbs_wf s ->
  (forall n r, pbs_take_post s n r <-> r = vtake n s) /\
  (forall n r, pbs_drop_post s n r <-> r = vdrop n s) /\
  (forall o r, pbs_wf o -> (pbs_add_post s o r <-> r = s ++ o)) /\
  (forall k v r, pbs_update_pre s k -> 0 <= v < 256 ->
     (pbs_update_post s k v r <-> py_setitem s k v r)).
Proof. exact pbs_ops_ok. Qed.
Print Assumptions C34_byteseq_partial.
