(** Model of the name encodings and of the fresh-name generator.

    Sources (below /repo/src/nagini_translation):
    - lib/util.py: string_to_int (427-434), int_to_string (437-442),
      SingletonFreshName (406-424)
    - translators/common.py: check_var_defined (293-299), set_var_defined
      (301-307), _set_global_defined/_is_defined (322-356),
      _combine_names/extract_identifiers (358-400)
    - lib/program_nodes.py: PythonScope (66-100) *)
From Coq Require Import List NArith Bool.
Import ListNotations.
Open Scope N_scope.

(** A Python string is the list of its code points ([ord]). *)
Definition pystring := list N.

(** lib/util.py:431-434. The [for (index, char) in enumerate(string)] loop;
    [index] and [result] are the loop's variables. *)
Fixpoint string_to_int_loop (s : pystring) (index result : N) : N :=
  match s with
  | [] => result
  | c :: s' => string_to_int_loop s' (index + 1) (result + N.pow 256 index * c)
  end.

(** lib/util.py:427-434. *)
Definition string_to_int (s : pystring) : N := string_to_int_loop s 0 0.

(** lib/util.py:437-442. The [while i > 0] loop; [fuel] bounds the number of
    iterations, [int_to_string] supplies enough of it (every iteration drops
    8 bits). *)
Fixpoint int_to_string_loop (fuel : nat) (i : N) (result : pystring) : pystring :=
  match fuel with
  | O => result
  | S fuel' =>
      if 0 <? i then int_to_string_loop fuel' (i / 256) (result ++ [i mod 256])
      else result
  end.

Definition int_to_string (i : N) : pystring :=
  int_to_string_loop (N.size_nat i) i [].

(** translators/common.py:293-307. Definedness of local variables is recorded
    by inhaling [IsDefined(id)] facts, where [id] is the encoded name. The
    facts known at a program point are modelled as the list of ids inhaled so
    far; a check succeeds iff the id was inhaled (the verifier knows nothing
    else about the uninterpreted function [IsDefined]). *)
Definition facts := list N.

Definition set_var_defined (sil_name : pystring) (f : facts) : facts :=
  string_to_int sil_name :: f.

Definition check_var_defined (sil_name : pystring) (f : facts) : bool :=
  existsb (N.eqb (string_to_int sil_name)) f.

(** resources/name_domain.sil. The axioms make [_Name] a free term algebra
    over [_single] and [_combine]; it is modelled by that algebra. *)
Inductive vname := Single (i : N) | Combine (p n : vname).

(** translators/common.py:388-400. [names] is the dotted reference from left to
    right; the loop runs over [reversed(names)]. *)
Fixpoint encode_rev (rev_names : list pystring) (decl_id : option vname) : option vname :=
  match rev_names with
  | [] => decl_id
  | n :: rest =>
      let current := Single (string_to_int n) in
      encode_rev rest
        (match decl_id with
         | None => Some current
         | Some d => Some (Combine current d)
         end)
  end.

Definition extract_identifier (names : list pystring) : option vname :=
  encode_rev (rev names) None.

(** ---------------------------------------------------------------- *)
(** Fresh names. All scopes of a program delegate to the table of the module
    (program_nodes.py:70-100, methods and classes are created with
    [sil_names = None]), so the table is one set of strings. Names are
    represented by an abstract type with decidable equality and a function
    [suffix name counter] standing for [name + '_' + str(counter)]. *)
Section Fresh.
  Variable name : Type.
  Variable name_eqb : name -> name -> bool.
  Variable suffix : name -> nat -> name.

  (** A scope either owns a table or delegates to its superscope
      (program_nodes.py:70-80). [own] is [sil_names is not None]. *)
  Inductive scope :=
  | Owner                        (* sil_names is not None *)
  | Nested (super : scope).      (* sil_names is None *)

  (** program_nodes.py:75-80. *)
  Fixpoint contains_name (s : scope) (tbl : list name) (n : name) : bool :=
    match s with
    | Owner => existsb (name_eqb n) tbl
    | Nested s' => contains_name s' tbl n
    end.

  (** program_nodes.py:95-99. *)
  Fixpoint add_name (s : scope) (tbl : list name) (n : name) : list name :=
    match s with
    | Owner => n :: tbl
    | Nested s' => add_name s' tbl n
    end.

  (** program_nodes.py:85-88, the [while self.contains_name(new_name)] loop.
      [None] means that [fuel] iterations were not enough. *)
  Fixpoint fresh_loop (fuel : nat) (s : scope) (tbl : list name) (n : name)
           (counter : nat) : option name :=
    match fuel with
    | O => None
    | S fuel' =>
        let new_name := suffix n counter in
        if contains_name s tbl new_name
        then fresh_loop fuel' s tbl n (S counter)
        else Some new_name
    end.

  (** program_nodes.py:82-93. The loop is given one iteration more than there
      are names in the table. *)
  Definition get_fresh_name (s : scope) (tbl : list name) (n : name)
    : option (name * list name) :=
    if contains_name s tbl n then
      match fresh_loop (S (length tbl)) s tbl n 0 with
      | Some r => Some (r, add_name s tbl r)
      | None => None
      end
    else Some (n, add_name s tbl n).

  (** A history of requests: each is a scope and a wished-for name. The result
      lists the names handed out, in order, and the final table. *)
  Fixpoint requests (rs : list (scope * name)) (tbl : list name)
    : option (list name * list name) :=
    match rs with
    | [] => Some ([], tbl)
    | (s, n) :: rs' =>
        match get_fresh_name s tbl n with
        | None => None
        | Some (r, tbl') =>
            match requests rs' tbl' with
            | None => None
            | Some (out, tbl'') => Some (r :: out, tbl'')
            end
        end
    end.

  (** lib/util.py:413-424, SingletonFreshName: a dictionary in front of
      [get_fresh_name]. *)
  Definition assoc_name (d : list (name * name)) (n : name) : option name :=
    match find (fun p => name_eqb n (fst p)) d with
    | Some p => Some (snd p)
    | None => None
    end.

  Definition singleton_call (s : scope) (d : list (name * name)) (tbl : list name)
             (n : name) : option (name * list (name * name) * list name) :=
    match assoc_name d n with
    | Some r => Some (r, d, tbl)
    | None =>
        match get_fresh_name s tbl n with
        | Some (r, tbl') => Some (r, (n, r) :: d, tbl')
        | None => None
        end
    end.

  Fixpoint singleton_calls (s : scope) (d : list (name * name)) (tbl : list name)
           (ns : list name) : option (list name * list (name * name) * list name) :=
    match ns with
    | [] => Some ([], d, tbl)
    | n :: ns' =>
        match singleton_call s d tbl n with
        | None => None
        | Some (r, d', tbl') =>
            match singleton_calls s d' tbl' ns' with
            | None => None
            | Some (out, d'', tbl'') => Some (r :: out, d'', tbl'')
            end
        end
    end.
End Fresh.

Arguments Owner : clear implicits.

(** Concrete suffixing on pystrings: [name + '_' + str(counter)]
    (program_nodes.py:84). Decimal digits, most significant first. *)
Fixpoint str_nat_loop (fuel n : nat) (acc : pystring) : pystring :=
  match fuel with
  | O => acc
  | S f =>
      let acc' := (48 + N.of_nat (Nat.modulo n 10)) :: acc in
      match Nat.div n 10 with
      | O => acc'
      | q => str_nat_loop f q acc'
      end
  end.

Definition str_nat (n : nat) : pystring := str_nat_loop (S n) n [].

Definition py_suffix (n : pystring) (counter : nat) : pystring :=
  n ++ 95 :: str_nat counter.

Fixpoint pystring_eqb (a b : pystring) : bool :=
  match a, b with
  | [], [] => true
  | x :: a', y :: b' => (x =? y) && pystring_eqb a' b'
  | _, _ => false
  end.
