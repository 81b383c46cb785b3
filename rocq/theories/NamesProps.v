(** Property theorems C01 and C02. *)
From Coq Require Import List NArith Bool Lia.
From Verif Require Import NamesModel NamesSpec NamesProofs.
Import ListNotations.
Open Scope N_scope.

(** C01 in full is false: two different identifiers with the same integer.
    The witness is U+0165 'a' (t with caron, a) and "eb". *)
Theorem C01_name_ids_distinct_refuted :
  exists s t, identifier s /\ identifier t /\ s <> t /\ string_to_int s = string_to_int t.
Proof.
  exists [357; 97], [101; 98].
  repeat split; try discriminate; repeat constructor; unfold ident_letter; lia.
Qed.
Print Assumptions C01_name_ids_distinct_refuted.

(** ... with the observable effect that a variable never assigned counts as
    defined. *)
Theorem C01_definedness_confuses_names_refuted :
  exists x y, identifier x /\ identifier y /\ x <> y /\
    check_var_defined x (set_var_defined y []) = true.
Proof.
  exists [357; 97], [101; 98].
  repeat split; try discriminate; repeat constructor; unfold ident_letter; lia.
Qed.
Print Assumptions C01_definedness_confuses_names_refuted.

(** For names over Latin-1 (in particular ASCII names) the encoding can be
    decoded ... *)
Theorem C01_name_ids_decode_partial :
  forall s, latin1_name s -> int_to_string (string_to_int s) = s.
Proof. exact round_trip. Qed.
Print Assumptions C01_name_ids_decode_partial.

(** ... so it is injective ... *)
Theorem C01_name_ids_distinct_partial :
  forall s t, latin1_name s -> latin1_name t -> s <> t -> string_to_int s <> string_to_int t.
Proof. exact (fun s t Hs Ht N E => N (string_to_int_inj s t Hs Ht E)). Qed.
Print Assumptions C01_name_ids_distinct_partial.

(** ... and after any sequence of definitions exactly the defined names count as
    defined. *)
Theorem C01_definedness_exact_partial :
  forall defs x, Forall latin1_name defs -> latin1_name x ->
  (check_var_defined x (fold_right set_var_defined [] defs) = true <-> In x defs).
Proof. exact definedness_exact. Qed.
Print Assumptions C01_definedness_exact_partial.

(** Dotted global names [a.b.c] are told apart, too. *)
Theorem C01_dotted_names_distinct_partial :
  forall ns ms, Forall latin1_name ns -> Forall latin1_name ms -> ns <> ms ->
  extract_identifier ns <> extract_identifier ms.
Proof. exact (fun ns ms Hn Hm N E => N (extract_identifier_inj ns ms Hn Hm E)). Qed.
Print Assumptions C01_dotted_names_distinct_partial.

Example C01_ex : latin1_name [115; 101; 108; 102] /\ string_to_int [115; 101; 108; 102] = 1718379891
  /\ int_to_string 1718379891 = [115; 101; 108; 102].
Proof. repeat split; repeat constructor; unfold latin1_char; lia. Qed.

(** C02: any history of requests, in any scopes, over any initial table. All
    requests are answered, with pairwise distinct names none of which was in the
    table (e.g. the reserved words) before; everything handed out is recorded. *)
Theorem C02_fresh_names :
  forall rs tbl, exists out tbl',
    requests pystring pystring_eqb py_suffix rs tbl = Some (out, tbl') /\
    length out = length rs /\
    NoDup out /\ (forall r, In r out -> ~ In r tbl) /\
    (forall x, In x tbl' <-> In x out \/ In x tbl).
Proof. exact (requests_fresh pystring pystring_eqb py_suffix pystring_eqb_spec py_suffix_inj). Qed.
Print Assumptions C02_fresh_names.

(** A name that is still free is handed out unchanged. *)
Theorem C02_free_name_kept :
  forall s tbl n, ~ In n tbl ->
  get_fresh_name pystring pystring_eqb py_suffix s tbl n = Some (n, n :: tbl).
Proof. exact (get_fresh_keeps pystring pystring_eqb py_suffix pystring_eqb_spec). Qed.
Print Assumptions C02_free_name_kept.

(** SingletonFreshName: equal wishes get equal names, different wishes different
    ones, over any sequence of calls. *)
Theorem C02_singleton_names :
  forall s tbl ns out d tbl' i j n m a b,
  singleton_calls pystring pystring_eqb py_suffix s [] tbl ns = Some (out, d, tbl') ->
  nth_error ns i = Some n -> nth_error ns j = Some m ->
  nth_error out i = Some a -> nth_error out j = Some b ->
  (n = m <-> a = b).
Proof. exact (singleton_function pystring pystring_eqb py_suffix pystring_eqb_spec py_suffix_inj). Qed.
Print Assumptions C02_singleton_names.

Example C02_ex :
  requests pystring pystring_eqb py_suffix
    [(Owner, [97]); (Nested Owner, [97]); (Nested (Nested Owner), [97]); (Owner, [98])] [[98]]
  = Some ([[97]; [97; 95; 48]; [97; 95; 49]; [98; 95; 48]],
          [[98; 95; 48]; [97; 95; 49]; [97; 95; 48]; [97]; [98]]).
Proof. reflexivity. Qed.

Example C02_ex_singleton :
  exists d t, singleton_calls pystring pystring_eqb py_suffix Owner [] [[97]] [[97]; [98]; [97]]
  = Some ([[97; 95; 48]; [98]; [97; 95; 48]], d, t).
Proof. eexists. eexists. reflexivity. Qed.
