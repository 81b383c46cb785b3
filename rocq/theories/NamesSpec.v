(** Independent vocabulary for C01 and C02. *)
From Coq Require Import List NArith Bool.
Import ListNotations.
Open Scope N_scope.

(** A character of the Latin-1 range other than NUL. *)
Definition latin1_char (c : N) : Prop := 1 <= c <= 255.
Definition latin1_name (s : list N) : Prop := Forall latin1_char s.

(** Code points that may start or continue a Python identifier: ASCII letters and
    the underscore, and the block Latin Extended-A (U+0100..U+017F), all of whose
    members are letters. *)
Definition ident_letter (c : N) : Prop :=
  65 <= c <= 90 \/ 97 <= c <= 122 \/ c = 95 \/ 256 <= c <= 383.
Definition identifier (s : list N) : Prop := s <> [] /\ Forall ident_letter s.
