(** What users of the language server see, independently of how it works. *)
From Coq Require Import List Arith ZArith NArith Bool.
From Verif Require Import LspModel.
Import ListNotations.

(** What a verification of a file reports when nothing else runs. *)
Definition outcome (E : env) (d : doc) (c : content) (x : sel) : list diagnostic :=
  match translate E d c x with Some ds => ds | None => verdict E d c x end.

(** All verifications of a document have ended. *)
Definition quiet (s : state) (d : doc) : Prop := forall i, i < n s -> r_doc (runs s i) = d -> r_phase (runs s i) = Done.
Definition all_done (s : state) : Prop := forall i, i < n s -> r_phase (runs s i) = Done.
(** A verification that was cancelled. *)
Definition was_cancelled (r : run) : Prop :=
  r_job r = JStopped \/ r_phase r = Awaited None \/ r_phase r = Returned None.
(** Every earlier verification of the document has ended, was cancelled, or is one that the
    service can cancel. *)
Definition settled (s : state) (d : doc) : Prop := forall i, i < n s -> r_doc (runs s i) = d ->
  r_phase (runs s i) = Done \/ was_cancelled (runs s i) \/
  (table s d = Some i /\ r_job (runs s i) = JPending).

(** Columns: characters of a line by code point; Python's ast counts bytes of UTF-8, the
    protocol counts units of UTF-16. *)
Definition utf8_len (c : N) : Z := if (c <? 128)%N then 1 else if (c <? 2048)%N then 2 else if (c <? 65536)%N then 3 else 4.
Definition utf16_len (c : N) : Z := if (c <? 65536)%N then 1 else 2.
Definition offset (len : N -> Z) (line : list N) (k : nat) : Z := fold_right Z.add 0%Z (map len (firstn k line)).

(** The word around a position: a maximal sequence of word characters. *)
Definition span {A} (isword : A -> bool) (line : list A) (char a b : nat) : Prop :=
  a <= char <= b /\ a < b /\ b <= length line /\
  (forall i x, a <= i < b -> nth_error line i = Some x -> isword x = true) /\
  (forall p x, a = S p -> nth_error line p = Some x -> isword x = false) /\
  (forall x, nth_error line b = Some x -> isword x = false).
