(** Attributes of objects: which Viper field an attribute denotes, and the permissions to
    create, write, read and delete it.

    Sources (under /repo/src/nagini_translation):
    - lib/program_nodes.py: PythonClass.get_field (551-560), all_fields (642-651), process
      (691-702), PythonField.process, is_mangled, actual_field (1856-1877);
    - translators/expression.py: translate_Attribute (1135-1164 union receivers, 1165-1189),
      _lookup_field (1014-1033);
    - translators/statement.py: translate_stmt_Delete (418-442), _assign_single_value
      (1410-1464), create_new_field_permission (1466-1495);
    - translators/contract.py: translate_may_set, translate_may_create (301-345);
    - translators/call.py 274-278 (permissions of a new object); translators/program.py 97-101.

    Left out: properties, static fields, type tests of field values, the numbers of field
    names in MaySet (C01, C02: distinct fields have distinct Viper names). *)
From Coq Require Import List Bool Arith NArith ZArith QArith.
From Verif Require Import NamesModel.
Import ListNotations.
Local Open Scope nat_scope.

(** ** Classes and their fields *)

(** A class: its name, its superclass, and the keys of PythonClass.fields. *)
Record cls := Cls { c_name : pystring; c_base : option nat; c_fields : list pystring }.

Definition program := list cls.

Definition underscore : N := 95%N.

Definition starts_dunder (x : pystring) : bool :=
  match x with a :: b :: _ => (a =? underscore)%N && (b =? underscore)%N | _ => false end.

(** PythonField.is_mangled *)
Definition is_mangled (x : pystring) : bool :=
  starts_dunder x && negb (starts_dunder (rev x)).

Fixpoint mem (x : pystring) (l : list pystring) : bool :=
  match l with [] => false | y :: l' => pystring_eqb x y || mem x l' end.

(** PythonClass.get_field: the class (this one or its nearest superclass) that lists the
    field.  The fuel is large enough, since superclasses come first. *)
Fixpoint get_field_f (fuel : nat) (P : program) (c : nat) (x : pystring) : option nat :=
  match fuel with
  | 0 => None
  | S f =>
      match nth_error P c with
      | None => None
      | Some k =>
          if mem x (c_fields k) then Some c
          else match c_base k with Some b => get_field_f f P b x | None => None end
      end
  end.
Definition get_field (P : program) (c : nat) (x : pystring) : option nat := get_field_f (S c) P c x.

(** PythonField.process: the field of a superclass that this one stands for. *)
Definition inherited (P : program) (c : nat) (x : pystring) : option nat :=
  if is_mangled x then None
  else match nth_error P c with
       | Some k => match c_base k with Some b => get_field P b x | None => None end
       | None => None
       end.

(** PythonField.actual_field *)
Fixpoint actual_f (fuel : nat) (P : program) (c : nat) (x : pystring) : nat :=
  match fuel with
  | 0 => c
  | S f => match inherited P c x with Some d => actual_f f P d x | None => c end
  end.
Definition actual (P : program) (c : nat) (x : pystring) : nat := actual_f (S c) P c x.

(** A Viper field: the class and the name of the PythonField it was made for. *)
Definition vfield := (nat * pystring)%type.

Definition vfield_eqb (f g : vfield) : bool := (fst f =? fst g) && pystring_eqb (snd f) (snd g).

(** translators/program.py 97-101: only these are declared. *)
Definition declared (P : program) (f : vfield) : bool :=
  match inherited P (fst f) (snd f) with None => true | Some _ => false end.

(** PythonClass.all_fields *)
Fixpoint all_fields_f (fuel : nat) (P : program) (c : nat) : list vfield :=
  match fuel with
  | 0 => []
  | S f =>
      match nth_error P c with
      | None => []
      | Some k =>
          filter (declared P) (map (fun x => (c, x)) (c_fields k)) ++
          match c_base k with Some b => all_fields_f f P b | None => [] end
      end
  end.
Definition all_fields (P : program) (c : nat) : list vfield := all_fields_f (S c) P c.

(** The field that e.x denotes in a method of class [cur] (None: outside classes), if e has
    static type [T]; None: InvalidProgramException.  _lookup_field, or 1146-1150 if e has a
    union type with member T ([union]), where the check for private fields is missing.
    (ctx.current_class and ctx.actual_function.cls are the same here.) *)
Definition lookup (P : program) (union : bool) (cur : option nat) (T : nat) (x : pystring) : option vfield :=
  match get_field P T x with
  | None => None
  | Some c =>
      let a := actual P c x in
      if negb union && is_mangled x && negb (match cur with Some d => a =? d | None => false end)
      then None else Some (a, x)
  end.

(** statement.py 429-434 (del) and contract.py 311-316, 341-345 (MaySet, MayCreate): neither
    actual_field nor the check. *)
Definition lookup_raw (P : program) (T : nat) (x : pystring) : option vfield :=
  option_map (fun c => (c, x)) (get_field P T x).

(** ** Python's names for attributes: private names are extended by the class name in whose
    body they are written (Python reference, 6.2.1). *)
Fixpoint strip (n : pystring) : pystring :=
  match n with
  | [] => []
  | a :: n' => if (a =? underscore)%N then strip n' else n
  end.

Fixpoint ends_dunder (x : pystring) : bool :=
  match x with
  | [] => false
  | [a; b] => (a =? underscore)%N && (b =? underscore)%N
  | _ :: x' => ends_dunder x'
  end.

(** Private names begin with two underscores and do not end with two. *)
Definition python_private (x : pystring) : bool :=
  match x with
  | a :: b :: _ => (a =? underscore)%N && (b =? underscore)%N && negb (ends_dunder x)
  | _ => false
  end.

Definition python_name (P : program) (cur : option nat) (x : pystring) : pystring :=
  if python_private x then
    match cur with
    | Some c => match nth_error P c with
                | Some k => match strip (c_name k) with
                            | [] => x
                            | s => underscore :: s ++ x
                            end
                | None => x
                end
    | None => x
    end
  else x.

(** ** Executions *)

(** Permissions: access to a field, and the permission to create it (_MaySet). *)
Inductive res := RAcc (o : nat) (f : vfield) | RMay (o : nat) (f : vfield).

Definition res_eqb (a b : res) : bool :=
  match a, b with
  | RAcc o f, RAcc o' f' | RMay o f, RMay o' f' => (o =? o') && vfield_eqb f f'
  | _, _ => false
  end.

Definition perms := res -> Q.

Definition plus (p : perms) (r : res) (q : Q) : perms :=
  fun r' => if res_eqb r r' then (p r' + q)%Q else p r'.

Definition minus (p : perms) (r : res) (q : Q) : perms :=
  fun r' => if res_eqb r r' then (p r' - q)%Q else p r'.

(** The classes of the objects, their attributes as Python stores them, the values of the
    Viper fields, and the permissions of the activations of methods (in all threads). *)
Record state := St {
  objs : list nat;
  attrs : nat -> pystring -> option Z;
  vheap : nat -> vfield -> Z;
  holders : list perms }.

Definition none_held : perms := fun _ => 0%Q.
Definition held (st : state) (i : nat) : perms := nth i (holders st) none_held.
Definition class_of (st : state) (o : nat) : nat := nth o (objs st) 0.

Fixpoint update {A} (l : list A) (i : nat) (a : A) : list A :=
  match l, i with
  | [], _ => []
  | _ :: l', 0 => a :: l'
  | x :: l', S i' => x :: update l' i' a
  end.

Definition set_held (st : state) (i : nat) (p : perms) : state :=
  St (objs st) (attrs st) (vheap st) (update (holders st) i p).

Definition set_attr (a : nat -> pystring -> option Z) (o : nat) (x : pystring) (v : option Z) :=
  fun o' x' => if (o =? o') && pystring_eqb x x' then v else a o' x'.

Definition set_vheap (h : nat -> vfield -> Z) (o : nat) (f : vfield) (v : Z) :=
  fun o' f' => if (o =? o') && vfield_eqb f f' then v else h o' f'.

(** call.py 274-278: MaySet for all fields of the class. *)
Definition new_perms (o : nat) (fs : list vfield) (p : perms) : perms :=
  fold_left (fun p f => plus p (RMay o f) 1) fs p.

(** create_new_field_permission, followed by the check of the assignment: None if a check
    fails. *)
Definition write_perms (p : perms) (o : nat) (f : vfield) : option perms :=
  let p1 :=
    if negb (Qle_bool (p (RMay o f)) 0)
    then if Qle_bool 1 (p (RMay o f)) then Some (plus (minus p (RMay o f) 1) (RAcc o f) 1) else None
    else Some p in
  match p1 with
  | Some p1 => if Qle_bool 1 (p1 (RAcc o f)) then Some p1 else None
  | None => None
  end.

(** translate_stmt_Delete *)
Definition delete_perms (p : perms) (o : nat) (f : vfield) : option perms :=
  if Qle_bool 1 (p (RAcc o f)) then Some (plus (minus p (RAcc o f) 1) (RMay o f) 1) else None.

(** translate_may_set: what an exhale gives away.  (An inhale is checked for both.) *)
Definition may_set_res (p : perms) (o : nat) (f : vfield) : res :=
  if negb (Qle_bool (p (RAcc o f)) 0) then RAcc o f else RMay o f.

(** Where an attribute is accessed: in the body of which class, with which static type of
    the receiver, and whether that is a member of a union. *)
Record site := Site { s_union : bool; s_cur : option nat; s_type : nat; s_attr : pystring }.

(** What a step does; for reads the value the verifier knows and what Python finds, for
    deletions whether Python finds the attribute. *)
Inductive label :=
  | LOther
  | LWrite (s : site) (o : nat)
  | LRead (s : site) (o : nat) (known : Z) (found : option Z)
  | LDelete (s : site) (o : nat) (exists_ : bool).

(** The static type of a receiver is a superclass of the class of the object. *)
Inductive subclass (P : program) : nat -> nat -> Prop :=
  | sub_refl c : subclass P c c
  | sub_step c k b d : nth_error P c = Some k -> c_base k = Some b -> subclass P b d -> subclass P c d.

Inductive step (P : program) : state -> label -> state -> Prop :=
  | s_new i C st :
      i < length (holders st) -> C < length P ->
      let o := length (objs st) in
      step P st LOther
        (set_held (St (objs st ++ [C]) (fun o' x => if o =? o' then None else attrs st o' x)
                      (vheap st) (holders st))
                  i (new_perms o (all_fields P C) (held st i)))
  | s_write i s o f v p' st :
      i < length (holders st) -> o < length (objs st) -> subclass P (class_of st o) (s_type s) ->
      lookup P (s_union s) (s_cur s) (s_type s) (s_attr s) = Some f ->
      write_perms (held st i) o f = Some p' ->
      step P st (LWrite s o)
        (set_held (St (objs st) (set_attr (attrs st) o (python_name P (s_cur s) (s_attr s)) (Some v))
                      (set_vheap (vheap st) o f v) (holders st)) i p')
  | s_read i s o f st :
      i < length (holders st) -> o < length (objs st) -> subclass P (class_of st o) (s_type s) ->
      lookup P (s_union s) (s_cur s) (s_type s) (s_attr s) = Some f ->
      (0 < held st i (RAcc o f))%Q ->
      step P st (LRead s o (vheap st o f) (attrs st o (python_name P (s_cur s) (s_attr s)))) st
  | s_delete i s o f p' st :
      i < length (holders st) -> o < length (objs st) -> subclass P (class_of st o) (s_type s) ->
      lookup_raw P (s_type s) (s_attr s) = Some f -> declared P f = true ->
      delete_perms (held st i) o f = Some p' ->
      step P st
        (LDelete s o (match attrs st o (python_name P (s_cur s) (s_attr s)) with Some _ => true | None => false end))
        (set_held (St (objs st) (set_attr (attrs st) o (python_name P (s_cur s) (s_attr s)) None)
                      (vheap st) (holders st)) i p')
  (* a contract with MaySet(o, x) at a call, return, start or join; MayCreate likewise *)
  | s_may_set i j T x o f st :
      i < length (holders st) -> j < length (holders st) -> i <> j -> o < length (objs st) ->
      subclass P (class_of st o) T -> lookup_raw P T x = Some f ->
      let r := may_set_res (held st i) o f in
      (1 <= held st i r)%Q ->
      step P st LOther (set_held (set_held st i (minus (held st i) r 1)) j (plus (held st j) r 1))
  (* other permissions given at a call, return, start or join *)
  | s_give i j r q st :
      i < length (holders st) -> j < length (holders st) -> i <> j ->
      (0 <= q)%Q -> (q <= held st i r)%Q ->
      step P st LOther (set_held (set_held st i (minus (held st i) r q)) j (plus (held st j) r q))
  | s_drop i r q st :
      i < length (holders st) -> (0 <= q)%Q -> (q <= held st i r)%Q ->
      step P st LOther (set_held st i (minus (held st i) r q))
  | s_call st :
      step P st LOther (St (objs st) (attrs st) (vheap st) (holders st ++ [none_held])).

Inductive steps (P : program) : state -> list label -> state -> Prop :=
  | steps_nil st : steps P st [] st
  | steps_snoc st1 tr st2 l st3 :
      steps P st1 tr st2 -> step P st2 l st3 -> steps P st1 (tr ++ [l]) st3.

Definition start : state := St [] (fun _ _ => None) (fun _ _ => 0%Z) [none_held].

(** ** The integer value of a new object of a subclass of int (call.py 326-337): class C has
    (or inherits) a constructor or not, and is called with the given integers; None:
    UnsupportedException. *)
Definition int_value (has_init : bool) (args : list Z) : option Z :=
  match args with
  | [] => Some 0%Z
  | [v] => if has_init then Some 0%Z else Some v
  | _ => if has_init then Some 0%Z else None
  end.
