(** Model of Nagini's built-in contracts for sequences: slices, lists, tuples,
    ranges, strings, bytes, bytearrays and PByteSeq.

    Sources: /repo/src/nagini_translation/resources/{slice,list,tuple,range,str,
    bytes,bytearray,byteseq}.sil; translators/expression.py (create_tuple,
    translate_string, translate_Bytes); translators/call.py (_translate_range).

    Each contract is split into a precondition [..._pre] and the proposition made
    of its [ensures] clauses, [..._post]. Permissions are modelled by a frame
    condition: a method may change exactly the lists to which it takes full
    permission and the newly allocated result. Type clauses ([typeof],
    [issubtype]) and information-flow clauses ([Low]) are dropped. *)
From Coq Require Import List ZArith Bool.
From Verif Require Import IntModel.
Import ListNotations.
Open Scope Z_scope.

(** * Viper's built-in sequences *)
Section Viper.
  Context {A : Type}.
  Definition vlen (s : list A) : Z := Z.of_nat (length s).
  (** s[..n] and s[n..]: a negative or too large n is cut off. *)
  Definition vtake (n : Z) (s : list A) : list A := firstn (Z.to_nat n) s.
  Definition vdrop (n : Z) (s : list A) : list A := skipn (Z.to_nat n) s.
  (** s[i..j] is s[..j][i..]. *)
  Definition vslice (s : list A) (i j : Z) : list A := vdrop i (vtake j s).
  (** s[i]; undefined ([None]) out of range. *)
  Definition vget (s : list A) (i : Z) : option A :=
    if i <? 0 then None else nth_error s (Z.to_nat i).
  (** s[i := x] *)
  Definition vupd (s : list A) (i : Z) (x : A) : list A :=
    vtake i s ++ [x] ++ vdrop (i + 1) s.
End Viper.

(** * slice.sil *)

(** A slice object: start and stop, [None] for Python's None (8-14, 16-18, 38-40). *)
Record slice := { internal_start : option Z; internal_stop : option Z }.

(** slice___start__ (20-27). *)
Definition slice_start (k : slice) (len : Z) : Z :=
  match internal_start k with
  | None => 0
  | Some s => if s <? 0 then len + s else s
  end.

(** slice___stop__ (29-36). *)
Definition slice_stop (k : slice) (len : Z) : Z :=
  match internal_stop k with
  | None => len
  | Some s => if s <? 0 then len + s else s
  end.

(** * list.sil *)
Section Lists.
  Context {V : Type}.

  (** Field list_acc (8) on a heap of list objects; [None] is not allocated. *)
  Definition heap := nat -> option (list V).

  (** Viper's frame rule: everything outside [mods] is unchanged. *)
  Definition framed (mods : list nat) (h h' : heap) : Prop :=
    forall l, ~ In l mods -> h' l = h l.

  (** list___init__ (10-17): full permission to the result, hence fresh. *)
  Definition list_init_post (h : heap) (h' : heap) (res : nat) : Prop :=
    h res = None /\ h' res = Some [] /\ framed [res] h h'.

  (** list___contains__ (19-23): identity of references. *)
  Definition list_contains_post (s : list V) (item : V) (result : bool) : Prop :=
    result = true <-> In item s.

  (** list___bool__ (25-30), list___len__ (32-38). *)
  Definition list_bool (s : list V) : bool := negb (vlen s =? 0).
  Definition list_len (s : list V) : Z := vlen s.

  (** list___getitem__ (40-48). *)
  Definition list_getitem_pre (s : list V) (key : Z) : Prop :=
    (key < 0 -> key >= - list_len s) /\ (key >= 0 -> key < list_len s).
  Definition list_getitem_post (s : list V) (key : Z) (result : V) : Prop :=
    Some result = (if 0 <=? key then vget s key else vget s (list_len s + key)).

  (** list___getitem_slice__ (50-60). *)
  Definition list_getitem_slice_post (h : heap) (self : nat) (key : slice) (h' : heap) (res : nat)
    : Prop :=
    exists s, h self = Some s /\ h res = None /\
      h' res = Some (vslice s (slice_start key (list_len s)) (slice_stop key (list_len s))) /\
      framed [res] h h'.

  (** list___setitem__ (62-73). *)
  Definition list_setitem_pre (s : list V) (key : Z) : Prop := key >= 0 /\ key < list_len s.
  Definition list_setitem_post (h : heap) (self : nat) (key : Z) (item : V) (h' : heap) : Prop :=
    exists s, h self = Some s /\ h' self = Some (vupd s key item) /\ framed [self] h h'.

  (** list_insert (75-85). *)
  Definition insert_position (index len : Z) : Z :=
    let resolved := if index <? 0 then index + len else index in
    if resolved <? 0 then 0 else if len <? resolved then len else resolved.
  Definition list_insert_post (h : heap) (self : nat) (index : Z) (item : V) (h' : heap) : Prop :=
    exists s, h self = Some s /\
      (let clamped := insert_position index (vlen s) in
       h' self = Some (vtake clamped s ++ [item] ++ vdrop clamped s)) /\
      framed [self] h h'.

  (** list_append (87-95). *)
  Definition list_append_post (h : heap) (self : nat) (item : V) (h' : heap) : Prop :=
    exists s, h self = Some s /\ h' self = Some (s ++ [item]) /\ framed [self] h h'.

  (** list_extend (97-105): full permission to self and some to other, so they
      must be different objects. *)
  Definition list_extend_pre (self other : nat) : Prop := self <> other.
  Definition list_extend_post (h : heap) (self other : nat) (h' : heap) : Prop :=
    exists s o, h self = Some s /\ h' other = Some o /\ h' self = Some (s ++ o) /\
      framed [self] h h'.

  (** list___add__ (107-117). *)
  Definition list_add_post (h : heap) (self other : nat) (h' : heap) (res : nat) : Prop :=
    exists s o, h self = Some s /\ h other = Some o /\ h res = None /\
      h' res = Some (s ++ o) /\ framed [res] h h'.

  (** list___mul__ (119-127). Viper's % by a positive length is the usual modulo. *)
  Definition list_mul_post (h : heap) (self : nat) (factor : Z) (h' : heap) (res : nat) : Prop :=
    exists s r, h self = Some s /\ h res = None /\ h' res = Some r /\
      vlen r = (if 0 <? factor then factor else 0) * vlen s /\
      (factor > 0 -> forall i, i >= 0 -> i < vlen r -> vget r i = vget s (viper_mod i (vlen s))) /\
      framed [res] h h'.

  (** list_reverse (129-136). *)
  Definition list_reverse_post (h : heap) (self : nat) (h' : heap) (res : nat) : Prop :=
    exists s r, h self = Some s /\ h res = None /\ h' res = Some r /\
      vlen r = vlen s /\
      (forall i, i >= 0 /\ i < vlen r -> vget r i = vget s (vlen s - 1 - i)) /\
      framed [res] h h'.

  (** list_copy (138-145). *)
  Definition list_copy_post (h : heap) (self : nat) (h' : heap) (res : nat) : Prop :=
    exists s, h self = Some s /\ res <> self /\ h res = None /\ h' res = Some s /\
      framed [res] h h'.

  (** list_remove (147-157). *)
  Definition list_remove_pre (s : list V) (item : V) : Prop := In item s.
  Definition list_remove_post (h : heap) (self : nat) (item : V) (h' : heap) : Prop :=
    exists s s', h self = Some s /\ h' self = Some s' /\
      vlen s' = vlen s - 1 /\
      (exists i, 0 <= i /\ i < vlen s /\ vget s i = Some item /\
         (forall j, 0 <= j /\ j < i -> vget s j <> Some item) /\
         s' = vtake i s ++ vdrop (i + 1) s) /\
      framed [self] h h'.

  (** list_index (159-167). *)
  Definition list_index_pre (s : list V) (item : V) : Prop := In item s.
  Definition list_index_post (s : list V) (item : V) (result : Z) : Prop :=
    result >= 0 /\ result < vlen s /\ vget s result = Some item /\
    forall j, 0 <= j /\ j < result -> vget s j <> Some item.

  (** list___eq__ (184-199); [object_eq] is object___eq__. Both clauses. *)
  Definition list_eq_post (object_eq : V -> V -> bool) (s o : list V) (result : bool) : Prop :=
    (result = true <->
      (list_len s = list_len o /\
       forall i, i >= 0 /\ i < list_len s -> forall x y, vget s i = Some x -> vget o i = Some y ->
         object_eq x y = true)) /\
    (result = true <->
      (list_len s = list_len o /\
       forall i : pyint, unbox i >= 0 /\ unbox i < list_len s -> forall x y,
         list_getitem_post s (unbox i) x -> list_getitem_post o (unbox i) y ->
         object_eq x y = true)).
End Lists.

(** * tuple.sil *)
Section Tuples.
  Context {V : Type}.

  (** A tuple object: [tuple___val__] (8-9). [tuple_args(typeof(self))] has the
      same length by 152-155, so the type part is left out. *)
  Definition tuple := list V.

  (** tuple___len__ (152-155). *)
  Definition tuple_len (t : tuple) : Z := vlen t.

  (** tuple___create0__ .. tuple___create9__ (11-145): the literal length claimed by
      the last clause of the constructor of the given arity. *)
  Definition declared_len (arity : Z) : Z :=
    if arity =? 0 then 0 else    (* 15 *)
    if arity =? 1 then 1 else    (* 27 *)
    if arity =? 2 then 2 else    (* 38 *)
    if arity =? 3 then 3 else    (* 51 *)
    if arity =? 4 then 4 else    (* 65 *)
    if arity =? 5 then 5 else    (* 79 *)
    if arity =? 6 then 6 else    (* 94 *)
    if arity =? 7 then 6 else    (* 110 *)
    if arity =? 8 then 6 else    (* 127 *)
    6.                           (* 145 *)

  (** tuple___getitem__ (157-164). *)
  Definition tuple_getitem_pre (t : tuple) (key : Z) : Prop :=
    (key >= 0 -> key < tuple_len t) /\ (key < 0 -> key >= - tuple_len t).
  Definition tuple_getitem_post (t : tuple) (key : Z) (result : V) : Prop :=
    (key >= 0 -> Some result = vget t key) /\
    (key < 0 -> Some result = vget t (tuple_len t + key)).

  Definition tuple_create_post (args : list V) (result : tuple) : Prop :=
    result = args /\ tuple_len result = declared_len (vlen args) /\
    forall i x, vget args i = Some x -> tuple_getitem_post result i x.

  (** expression.py:727-747 (create_tuple): more than nine elements are rejected
      ([None]); otherwise the constructor of that arity is called. *)
  Definition create_tuple (args : list V) : option (tuple -> Prop) :=
    if 9 <? vlen args then None else Some (tuple_create_post args).

  (** tuple___getitem_slice__ (166-174). *)
  Definition tuple_slice_pre (t : tuple) (key : slice) : Prop :=
    (slice_start key (tuple_len t) >= 0 /\ slice_start key (tuple_len t) <= tuple_len t) /\
    (slice_stop key (tuple_len t) >= 0 /\ slice_stop key (tuple_len t) <= tuple_len t).
  Definition tuple_slice_post (t : tuple) (key : slice) (result : tuple) : Prop :=
    tuple_len result = slice_stop key (tuple_len t) - slice_start key (tuple_len t) /\
    result = vslice t (slice_start key (tuple_len t)) (slice_stop key (tuple_len t)).

  (** tuple___contains__ (176-178): identity of references. *)
  Definition tuple_contains_post (t : tuple) (item : V) (result : bool) : Prop :=
    result = true <-> In item t.

  (** tuple___eq__ (180-205): four clauses, over non-negative and negative indices,
      raw and boxed. *)
  Definition tuple_eq_clause (object_eq : V -> V -> bool) (s o : tuple) (result : bool)
      (I : Type) (num : I -> Z) (inrange : Z -> Prop) : Prop :=
    result = true <->
      (tuple_len s = tuple_len o /\
       forall i : I, inrange (num i) -> forall x y,
         tuple_getitem_post s (num i) x -> tuple_getitem_post o (num i) y ->
         object_eq x y = true).
  Definition tuple_eq_post (object_eq : V -> V -> bool) (s o : tuple) (result : bool) : Prop :=
    tuple_eq_clause object_eq s o result Z (fun i => i) (fun i => i >= 0 /\ i < tuple_len s) /\
    tuple_eq_clause object_eq s o result Z (fun i => i) (fun i => i <= -1 /\ i >= - tuple_len s) /\
    tuple_eq_clause object_eq s o result pyint unbox (fun i => i >= 0 /\ i < tuple_len s) /\
    tuple_eq_clause object_eq s o result pyint unbox (fun i => i <= -1 /\ i >= - tuple_len s).
End Tuples.

(** * range.sil *)

(** A range object: [range___val__] (30-37). *)
Definition range := list Z.

(** Viper's [start..stop). *)
Definition vrange (start stop : Z) : list Z :=
  map (fun i => start + Z.of_nat i) (seq 0 (Z.to_nat (stop - start))).

(** range___create__ (8-14). *)
Definition range_create_pre (start stop : Z) : Prop := stop >= start.
Definition range_create_post (start stop : Z) (result : range) : Prop := result = vrange start stop.

(** range___create_step__ (20-27). *)
Definition range_create_step_pre (start stop step : Z) : Prop := step >= 1.
Definition range_create_step_post (start stop step : Z) (result : range) : Prop :=
  vlen result = (if stop <=? start then 0 else viper_div (stop - start + step - 1) step) /\
  forall i, i >= 0 /\ i < vlen result -> vget result i = Some (start + i * step).

(** call.py:489-525 (_translate_range): the contract used for the arguments of a
    call of range; [None] is an UnsupportedException. *)
Definition translate_range (args : list Z) : option (Prop * (range -> Prop)) :=
  match args with
  | [start; stop; step] => Some (range_create_step_pre start stop step, range_create_step_post start stop step)
  | [start; stop] => Some (range_create_pre start stop, range_create_post start stop)
  | [stop] => Some (range_create_pre 0 stop, range_create_post 0 stop)
  | _ => None
  end.

(** range___len__ (40-43), range___getitem__ (46-52). *)
Definition range_len (r : range) : Z := vlen r.
Definition range_getitem_pre (r : range) (index : Z) : Prop :=
  (index >= 0 -> index < range_len r) /\ (index < 0 -> index >= - range_len r).
Definition range_getitem_post (r : range) (index result : Z) : Prop :=
  (index >= 0 -> Some result = vget r index) /\
  (index < 0 -> Some result = vget r (range_len r + index)).

(** range___getitem_slice__ (55-63). *)
Definition range_slice_pre (r : range) (key : slice) : Prop := tuple_slice_pre r key.
Definition range_slice_post (r : range) (key : slice) (result : range) : Prop :=
  range_len result = slice_stop key (range_len r) - slice_start key (range_len r) /\
  result = vslice r (slice_start key (range_len r)) (slice_stop key (range_len r)).

(** range___sil_seq__ (66-71) and range___contains__ (82-86). *)
Definition range_sil_seq_post (r : range) (result : list pyint) : Prop :=
  vlen result = range_len r /\
  (forall i x, i >= 0 /\ i < vlen r -> vget r i = Some x -> vget result i = Some (PyInt x)) /\
  (forall i, In i result <-> (is_bool i = false /\ In (unbox i) r)).
Definition range_contains_post (r : range) (item : pyint) (result : bool) : Prop :=
  exists s, range_sil_seq_post r s /\ (result = true <-> In item s).

(** range___eq__ (74-79). *)
Definition range_eq_post (r o : range) (result : bool) : Prop :=
  (r = o <-> result = true) /\ (result = true -> range_len r = range_len o).

(** * str.sil *)

(** A string object: str___len__ (8-10) and str___val__ (12-13) are independent. *)
Record str := { str_len : Z; str_val : list Z }.

(** str___len__ (8-10): the postcondition holds of every string. *)
Definition str_wf (s : str) : Prop := str_len s >= 0.

(** str___create__ (15-19). *)
Definition str_create_post (len : Z) (value : list Z) (result : str) : Prop :=
  str_wf result /\ str_len result = len /\ str_val result = value.

(** expression.py:642-658 (translate_string): length and code points. *)
Definition translate_string (s : list Z) : str -> Prop := str_create_post (vlen s) s.

(** str___bool__ (21-25). *)
Definition str_bool_post (s : str) (result : bool) : Prop := result = negb (str_len s =? 0).

(** str___eq__ (27-32). *)
Definition str_eq_post (s o : str) (result : bool) : Prop :=
  (str_val s = str_val o <-> result = true) /\ (result = true -> str_len s = str_len o).

(** str___add__ (34-39). *)
Definition str_add_post (s o result : str) : Prop :=
  str_wf result /\ str_len result = str_len s + str_len o /\ str_val result = str_val s ++ str_val o.

(** String expressions built from literals and +. *)
Inductive strexp := SLit (s : list Z) | SAdd (a b : strexp).

(** The objects such an expression may denote according to the contracts. *)
Inductive str_denotes : strexp -> str -> Prop :=
| den_lit : forall s r, translate_string s r -> str_denotes (SLit s) r
| den_add : forall a b ra rb r, str_denotes a ra -> str_denotes b rb -> str_add_post ra rb r ->
    str_denotes (SAdd a b) r.

(** * bytes.sil *)

(** A bytes object: bytes___val__ (16-17); its elements are boxed ints. *)
Definition bytes := list pyint.

(** bytes___len__ (8-14), bytes___create__ (19-23), bytes___bool__ (25-29). *)
Definition bytes_len (b : bytes) : Z := vlen b.
Definition bytes_create_post (value : list pyint) (result : bytes) : Prop :=
  bytes_len result = vlen value /\ result = value.
Definition bytes_bool (b : bytes) : bool := negb (bytes_len b =? 0).

(** expression.py:694-711 (translate_Bytes): every byte is boxed. *)
Definition translate_bytes (bs : list Z) : bytes -> Prop := bytes_create_post (map PyInt bs).

(** bytes___eq__ (31-36) on two bytes objects. *)
Definition bytes_eq_post (a b : bytes) (result : bool) : Prop :=
  (a = b <-> result = true) /\ (result = true -> bytes_len a = bytes_len b).

(** bytes___add__ (44-50). *)
Definition bytes_add_post (a b result : bytes) : Prop :=
  bytes_len result = bytes_len a + bytes_len b /\ result = a ++ b.

(** bytes___mul__helper (60-68), recursion on the factor. *)
Fixpoint mul_helper_fuel (fuel : nat) (s : bytes) (factor : Z) : bytes :=
  if factor =? 0 then [] else if factor =? 1 then s else
  match fuel with
  | O => []
  | S f => mul_helper_fuel f s (factor - 1) ++ s
  end.
Definition bytes_mul_helper (s : bytes) (factor : Z) : bytes :=
  mul_helper_fuel (Z.to_nat factor) s factor.

(** bytes___mul__ (52-58). *)
Definition bytes_mul_pre (factor : Z) : Prop := factor >= 0.
Definition bytes_mul_post (s : bytes) (factor : Z) (result : bytes) : Prop :=
  bytes_len result = factor * bytes_len s /\ result = bytes_mul_helper s factor.

(** bytes_join_val_helper (78-91): [fuel] is the number of remaining elements. *)
Fixpoint join_helper (fuel : nat) (l : list bytes) (sep : bytes) (index : Z) : bytes :=
  let elem := match vget l index with Some b => b | None => [] end in
  if index <? vlen l - 1 then
    match fuel with
    | O => []
    | S f => elem ++ sep ++ join_helper f l sep (index + 1)
    end
  else elem.

(** bytes_join (70-76). *)
Definition bytes_join_post (self : bytes) (other : list bytes) (result : bytes) : Prop :=
  result = (if vlen other =? 0 then [] else join_helper (length other) other self 0).

(** bytes___getitem__ (93-100), bytes___getitem_slice__ (102-110). *)
Definition bytes_getitem_pre (b : bytes) (index : Z) : Prop :=
  (index >= 0 -> index < bytes_len b) /\ (index < 0 -> index >= - bytes_len b).
Definition bytes_getitem_post (b : bytes) (index : Z) (result : pyint) : Prop :=
  (index >= 0 -> Some result = vget b index) /\
  (index < 0 -> Some result = vget b (bytes_len b + index)).
Definition bytes_slice_pre (b : bytes) (key : slice) : Prop := tuple_slice_pre b key.
Definition bytes_slice_post (b : bytes) (key : slice) (result : bytes) : Prop :=
  bytes_len result = slice_stop key (bytes_len b) - slice_start key (bytes_len b) /\
  result = vslice b (slice_start key (bytes_len b)) (slice_stop key (bytes_len b)).

(** * bytearray.sil *)

(** Field bytearray_acc (9). [byte_bounds] is int___byte_bounds__ (bool.sil:464-468). *)
Definition byte_bounds (v : Z) : bool := (0 <=? v) && (v <? 256).
Definition bytearray := list Z.

(** bytearray___initFromInt__ (17-23). *)
Definition ba_from_int_post (length : Z) (res : bytearray) : Prop :=
  vlen res = length /\ forall i, 0 <= i /\ i < length -> vget res i = Some 0.

(** bytearray___initFromList__ (34-42); the conversion's clauses for one argument
    are those that hold of ints (bool.sil:548-549). *)
Definition ba_from_list_pre (values : list pyint) : Prop :=
  forall i x, 0 <= i /\ i < vlen values -> vget values i = Some x -> byte_bounds (unbox x) = true.
Definition ba_from_list_post (values : list pyint) (res : bytearray) : Prop :=
  vlen res = vlen values /\
  forall i x, i >= 0 /\ i < vlen res -> vget values i = Some x -> vget res i = Some (unbox x).

(** bytearray___contains__ (59-64), bytearray___eq__ (74-80). *)
Definition ba_contains_post (s : bytearray) (key : pyint) (result : bool) : Prop :=
  result = true <-> In (unbox key) s.
Definition ba_eq_post (s o : bytearray) (result : bool) : Prop := result = true <-> s = o.

(** bytearray___getitem__ (88-96). *)
Definition ba_getitem_pre (s : bytearray) (key : Z) : Prop :=
  (key < 0 -> key >= - vlen s) /\ (key >= 0 -> key < vlen s).
Definition ba_getitem_post (s : bytearray) (key result : Z) : Prop :=
  Some result = (if 0 <=? key then vget s key else vget s (vlen s + key)) /\
  byte_bounds result = true.

(** bytearray___getitem_slice__ (98-105). *)
Definition ba_slice_post (s : bytearray) (key : slice) (res : bytearray) : Prop :=
  res = vslice s (slice_start key (vlen s)) (slice_stop key (vlen s)).

(** bytearray___setitem__ (107-116). *)
Definition ba_setitem_pre (s : bytearray) (key : Z) (value : pyint) : Prop :=
  key >= 0 /\ key < vlen s /\ byte_bounds (unbox value) = true.
Definition ba_setitem_post (s : bytearray) (key : Z) (value : pyint) (s' : bytearray) : Prop :=
  s' = vupd s key (unbox value).

(** bytearray_append (118-124), bytearray_extend (127-134), bytearray_reverse (136-141). *)
Definition ba_append_pre (item : pyint) : Prop := byte_bounds (unbox item) = true.
Definition ba_append_post (s : bytearray) (item : pyint) (s' : bytearray) : Prop :=
  s' = s ++ [unbox item].
Definition ba_extend_post (s o s' : bytearray) : Prop := s' = s ++ o.
Definition ba_reverse_post (s s' : bytearray) : Prop :=
  vlen s = vlen s' /\ forall i, i >= 0 /\ i < vlen s' -> vget s' i = vget s (vlen s' - 1 - i).

(** * byteseq.sil *)

(** PByteSeq objects: PByteSeq___val__ (9-12) with its postcondition. *)
Definition pbs_wf (s : list Z) : Prop := forall i, In i s -> byte_bounds i = true.

(** PByteSeq___create__ (19-23), PByteSeq___from_bytes__ (25-28). *)
Definition pbs_create_post (values result : list Z) : Prop := pbs_wf result /\ result = values.
Definition pbs_from_bytes_post (values result : list Z) : Prop := pbs_wf result /\ result = values.

(** PByteSeq_take (44-48), PByteSeq_drop (50-54), PByteSeq_update (56-61),
    PByteSeq___add__ (63-67). Objects with equal contents are identical (69-75). *)
Definition pbs_take_post (s : list Z) (no : Z) (result : list Z) : Prop :=
  pbs_create_post (vtake no s) result /\ (no = vlen s -> result = s).
Definition pbs_drop_post (s : list Z) (no : Z) (result : list Z) : Prop :=
  pbs_create_post (vdrop no s) result /\ (no = 0 -> result = s).
Definition pbs_update_pre (s : list Z) (index : Z) : Prop := index >= 0 /\ index < vlen s.
Definition pbs_update_post (s : list Z) (index val : Z) (result : list Z) : Prop :=
  byte_bounds val = true /\ pbs_create_post (vupd s index val) result.
Definition pbs_add_post (s o result : list Z) : Prop := pbs_create_post (s ++ o) result.
