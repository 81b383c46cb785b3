(** C32 (name tables) and C44 (names imported from other modules). *)
From Coq Require Import List Arith Lia Bool String.
From Verif Require Import ImpModel ImpSpec ImpProofs.
Import ListNotations.
Local Open Scope string_scope.

(** * C32 *)

(** Getting an entry of a combined table: the name is translated by the renamings, then
    the first table that has it decides. *)
Theorem C32_getitem : forall (A : Type) ns (ds : list (list (string * A))) item v,
  cd_getitem ns ds item = Some v <-> exists key, stands_for ns item key /\ first_match ds key v.
Proof. exact cd_getitem_ok. Qed.
Print Assumptions C32_getitem.

(** Testing tells whether getting succeeds. *)
Theorem C32_contains : forall (A : Type) ns (ds : list (list (string * A))) item,
  cd_contains ns ds item = true <-> exists v, cd_getitem ns ds item = Some v.
Proof. exact cd_contains_ok. Qed.
Print Assumptions C32_contains.

(** from m import f as g, h, with two tables that both have h *)
Definition C32_names := [("f", Some "g"); ("h", None)].
Definition C32_tables := [[("f", 1); ("h", 2)]; [("h", 3); ("g", 4)]].
Example C32_ex : cd_getitem C32_names C32_tables "g" = Some 1 /\ cd_getitem C32_names C32_tables "h" = Some 2 /\
  cd_getitem C32_names C32_tables "f" = None /\ cd_contains C32_names C32_tables "f" = false /\
  stands_for C32_names "g" "f" /\ first_match C32_tables "h" 2.
Proof. repeat split; try (apply cd_key_ok; reflexivity). apply tables_get_ok. reflexivity. Qed.

(** Full statement for the lazy views of imported modules: testing and getting agree for
    all import graphs. False with import cycles: *)
Definition C32_cycle (m : nat) : list item :=
  match m with
  | 0 => [IFrom 1 [("b", Some "a"); ("c", Some "b")]]
  | 1 => [IDef KClass "c" 7; IFrom 0 [("x", None)]]
  | _ => []
  end.
Theorem C32_view_refuted : exists body v k x n, forall f, 5 <= f ->
  view_contains body f v k x = Some false /\ view_get body f v k x = Some (Some n).
Proof.
  exists C32_cycle, (0, 0), KClass, "a", 7. intros f L.
  do 5 (destruct f as [|f]; [lia|]). split; reflexivity.
Qed.
Print Assumptions C32_view_refuted.

(** Missing: import cycles. *)
Theorem C32_view_partial : forall body rank, acyclic body rank -> forall v f k x,
  S (rank (view_module body v)) < f ->
  (exists b, view_contains body f v k x = Some b) /\ (exists r, view_get body f v k x = Some r) /\
  (view_contains body f v k x = Some true <-> exists n, view_get body f v k x = Some (Some n)).
Proof.
  intros body rank A v f k x L. split; [|split; [|split]].
  - destruct (view_contains body f v k x) as [b|] eqn:E; [exists b; reflexivity|].
    exfalso. exact (view_contains_total body rank A f v k x L E).
  - destruct (view_get body f v k x) as [b|] eqn:E; [exists b; reflexivity|].
    exfalso. exact (view_get_total body rank A f v k x L E).
  - exact (view_contains_get body rank A f v k x).
  - intros [n E]. exact (view_get_contains body rank A f v k x n E).
Qed.
Print Assumptions C32_view_partial.

(** 0: from 1 import f as g, k;  1: from 2 import k, def f;  2: def k *)
Definition C44_chain (m : nat) : list item :=
  match m with
  | 0 => [IFrom 1 [("f", Some "g"); ("k", None)]; IDef KGlobal "y" 9]
  | 1 => [IFrom 2 [("k", None)]; IDef KFunction "f" 1]
  | 2 => [IDef KMethod "k" 2]
  | _ => []
  end.
Example C32_view_ex : acyclic C44_chain (fun m => 3 - m) /\
  view_get C44_chain 9 (0, 0) KFunction "g" = Some (Some 1) /\
  view_get C44_chain 9 (0, 0) KMethod "k" = Some (Some 2) /\
  view_contains C44_chain 9 (0, 0) KFunction "f" = Some false.
Proof.
  split; [|repeat split]. intros m m' [[ns I]|I].
  - destruct m as [|[|[|m]]]; cbn in I; repeat (destruct I as [I|I]); try discriminate; try contradiction;
      injection I as <- <-; lia.
  - destruct m as [|[|[|m]]]; cbn in I; repeat (destruct I as [I|I]); try discriminate; try contradiction.
Qed.

(** * C44 *)

(** Full statement: forall body m x n, python_means body m x (Some n) ->
    exists f0, forall f, f0 <= f -> resolve body f g m x = Some (Some n).
    False, a name that is imported twice means the first import, Python takes the last: *)
Definition C44_twice (m : nat) : list item :=
  match m with
  | 0 => [IFrom 1 [("f", None)]; IFrom 2 [("f", None)]]
  | 1 => [IDef KFunction "f" 10]
  | 2 => [IDef KFunction "f" 20]
  | _ => []
  end.
Lemma run_defs : forall body k x n e, run body e [IDef k x n] (bind e x n).
Proof. intros. constructor. constructor. Qed.
Theorem C44_order_refuted : exists body m x n n', python_means body m x (Some n) /\ n <> n' /\
  forall g f, 5 <= f -> resolve body f g m x = Some (Some n').
Proof.
  exists C44_twice, 0, "f", 20, 10. split; [|split; [discriminate|]].
  - eexists. split.
    + eapply run_from; [apply run_defs| |].
      * intros y a [[= <- <-]|[]]. discriminate.
      * eapply run_from; [apply run_defs| |apply run_nil]. intros y a [[= <- <-]|[]]. discriminate.
    + reflexivity.
  - intros g f L. do 5 (destruct f as [|f]; [lia|]). reflexivity.
Qed.
Print Assumptions C44_order_refuted.

(** False, the imports of an imported module hide later imports: 0 imports f from 1 and
    g from 2; 1 imports another g from 3 for its own use. *)
Definition C44_hidden (m : nat) : list item :=
  match m with
  | 0 => [IFrom 1 [("f", None)]; IFrom 2 [("g", None)]]
  | 1 => [IFrom 3 [("g", None)]; IDef KFunction "f" 1]
  | 2 => [IDef KFunction "g" 20]
  | 3 => [IDef KFunction "g" 30]
  | _ => []
  end.
Theorem C44_leak_refuted : exists body m x n n', python_means body m x (Some n) /\ n <> n' /\
  forall g f, 5 <= f -> resolve body f g m x = Some (Some n').
Proof.
  exists C44_hidden, 0, "g", 20, 30. split; [|split; [discriminate|]].
  - eexists. split.
    + eapply run_from.
      * eapply run_from; [apply run_defs| |apply run_defs]. intros y a [[= <- <-]|[]]. discriminate.
      * intros y a [[= <- <-]|[]]. discriminate.
      * eapply run_from; [apply run_defs| |apply run_nil]. intros y a [[= <- <-]|[]]. discriminate.
    + reflexivity.
  - intros g f L. do 5 (destruct f as [|f]; [lia|]). reflexivity.
Qed.
Print Assumptions C44_leak_refuted.

(** False, a name that Python does not bind at all is found in the same way. *)
Definition C44_free (m : nat) : list item :=
  match m with
  | 0 => [IFrom 1 [("f", None)]]
  | 1 => [IFrom 3 [("g", None)]; IDef KFunction "f" 1]
  | 3 => [IDef KFunction "g" 30]
  | _ => []
  end.
Theorem C44_unbound_refuted : exists body m x n, python_means body m x None /\
  forall g f, 5 <= f -> resolve body f g m x = Some (Some n).
Proof.
  exists C44_free, 0, "g", 30. split.
  - eexists. split.
    + eapply run_from.
      * eapply run_from; [apply run_defs| |apply run_defs]. intros y a [[= <- <-]|[]]. discriminate.
      * intros y a [[= <- <-]|[]]. discriminate.
      * apply run_nil.
    + reflexivity.
  - intros g f L. do 5 (destruct f as [|f]; [lia|]). reflexivity.
Qed.
Print Assumptions C44_unbound_refuted.

(** Missing: names with several candidates, import cycles. *)
Theorem C44_resolve_partial : forall body rank, acyclic body rank -> forall g m x n f,
  rank m + 1 < f -> python_means body m x (Some n) ->
  (forall n', may_mean body true m x n' -> n' = n) ->
  resolve body f g m x = Some (Some n) /\ resolve_attr body f m x = Some (Some n).
Proof. intros body rank A g m x n f. exact (resolve_complete body rank A f g m x n). Qed.
Print Assumptions C44_resolve_partial.

Example C44_resolve_ex : python_means C44_chain 0 "k" (Some 2) /\
  (forall n', may_mean C44_chain true 0 "k" n' -> n' = 2) /\
  resolve C44_chain 9 5 0 "k" = Some (Some 2).
Proof.
  assert (M2 : forall own x n', may_mean C44_chain own 2 x n' -> n' = 2).
  { intros own x n' H. inversion H; subst; cbn in *; repeat (match goal with H : _ \/ _ |- _ => destruct H as [H|H] end);
      try discriminate; try contradiction. congruence. }
  assert (M1 : forall own n', may_mean C44_chain own 1 "k" n' -> n' = 2).
  { intros own n' H. inversion H; subst; cbn in *; repeat (match goal with H : _ \/ _ |- _ => destruct H as [H|H] end);
      try discriminate; try contradiction; injection H0 as <- <-; eapply M2; eassumption. }
  split; [|split; [|reflexivity]].
  - eexists. split.
    + eapply run_from.
      * eapply run_from; [apply run_defs| |apply run_defs]. intros y a [[= <- <-]|[]]. discriminate.
      * intros y a [[= <- <-]|[[= <- <-]|[]]]; discriminate.
      * apply run_defs.
    + reflexivity.
  - intros n' H. inversion H; subst; cbn in *; repeat (match goal with H : _ \/ _ |- _ => destruct H as [H|H] end);
      try discriminate; try contradiction.
    + injection H0 as <- <-. apply cd_key_ok in H1. injection H1 as <-. eapply M1. eassumption.
    + injection H0 as <- <-. eapply M1. eassumption.
Qed.

(** Whatever a name resolves to is a definition that the imports lead to, for every import
    graph. *)
Theorem C44_candidates : forall body g m x n f, resolve body f g m x = Some (Some n) ->
  may_mean body true m x n \/ may_mean body true g x n.
Proof. intros body g m x n f. exact (resolve_sound body f g m x n). Qed.
Print Assumptions C44_candidates.

Theorem C44_attribute_candidates : forall body m x n f, resolve_attr body f m x = Some (Some n) ->
  may_mean body true m x n.
Proof. intros body m x n f. exact (resolve_attr_sound body f m x n). Qed.
Print Assumptions C44_attribute_candidates.

(** Collecting the visible modules terminates if star imports form no cycle, even if other
    imports do ... *)
Theorem C44_terminates : forall body rank ms R, star_acyclic body rank ->
  (forall m, In m ms -> rank m <= R) ->
  (forall m m', In m ms -> imports body m m' -> In m' ms) ->
  forall m, In m ms -> exists f0, forall f, f0 <= f -> included body f [] (Orig m) <> None.
Proof. intros body rank ms R A B C. exact (included_terminates body rank A ms R B C). Qed.
Print Assumptions C44_terminates.

(** 0: from 1 import x, from 2 import *;  1: from 0 import y;  2: from 1 import x *)
Definition C44_cyclic (m : nat) : list item :=
  match m with
  | 0 => [IFrom 1 [("x", None)]; IStar 2]
  | 1 => [IFrom 0 [("y", None)]]
  | 2 => [IFrom 1 [("x", None)]]
  | _ => []
  end.
Example C44_terminates_ex : star_acyclic C44_cyclic (fun m => 1 - m) /\
  (forall m m', In m [0; 1; 2] -> imports C44_cyclic m m' -> In m' [0; 1; 2]) /\
  (exists l, included C44_cyclic 9 [] (Orig 0) = Some l) /\
  imports C44_cyclic 0 1 /\ imports C44_cyclic 1 0.
Proof.
  split; [|split; [|split; [eexists; reflexivity|split]]].
  - intros m m' I. destruct m as [|[|[|m]]]; cbn in I; repeat (destruct I as [I|I]); try discriminate; try contradiction.
    injection I as <-. lia.
  - intros m m' I J. assert (m = 0 \/ m = 1 \/ m = 2) as [->|[->| ->]] by (cbn in I; intuition lia);
      destruct J as [[ns J]|J]; cbn in J; repeat (destruct J as [J|J]); try discriminate; try contradiction;
      try (injection J as <- <-); try (injection J as <-); cbn; tauto.
  - left. eexists. left. reflexivity.
  - left. eexists. left. reflexivity.
Qed.

(** ... and never terminates from a module on a cycle of star imports, which Python accepts. *)
Theorem C44_star_cycle_refuted : exists body m, forall f x g, resolve body f g m x = None.
Proof.
  exists (fun m => match m with 0 => [IStar 1; IDef KFunction "f" 1] | 1 => [IStar 0] | _ => [] end), 0.
  intros f x g. unfold resolve. rewrite (included_diverges _ (fun m => m < 2)); [reflexivity| |lia].
  intros m L. exists (1 - m). split; [lia|]. destruct m as [|[|m]]; [|left; reflexivity|lia].
  left. reflexivity.
Qed.
Print Assumptions C44_star_cycle_refuted.

(** Looking a name up may not terminate either: 0 defines x, then imports it from 1,
    which imports it from 0. In Python both mean the same x. *)
Definition C44_mutual (m : nat) : list item :=
  match m with
  | 0 => [IDef KFunction "x" 1; IFrom 1 [("x", None)]]
  | 1 => [IFrom 0 [("x", None)]]
  | _ => []
  end.
Theorem C44_mutual_refuted : forall f g, resolve C44_mutual f g 1 "x" = None.
Proof.
  assert (I0 : forall f, included C44_mutual f [] (Orig 0) = None \/
    included C44_mutual f [] (Orig 0) = Some [Orig 0; Copy (0, 1); Copy (1, 0)]).
  { intros f. do 5 (destruct f as [|f]; [first [left; reflexivity|right; reflexivity]|]). right. reflexivity. }
  assert (I1 : forall f, included C44_mutual f [] (Orig 1) = None \/
    included C44_mutual f [] (Orig 1) = Some [Orig 1; Copy (1, 0); Copy (0, 1)]).
  { intros f. do 5 (destruct f as [|f]; [first [left; reflexivity|right; reflexivity]|]). right. reflexivity. }
  assert (V : forall f, view_contains C44_mutual f (1, 0) KClass "x" = None /\
    view_contains C44_mutual f (0, 1) KClass "x" = None).
  { induction f as [|f [IH1 IH2]]; [split; reflexivity|]. cbn [view_contains].
    replace (cd_key (view_names C44_mutual (1, 0)) "x") with (Some "x") by reflexivity.
    replace (cd_key (view_names C44_mutual (0, 1)) "x") with (Some "x") by reflexivity.
    change (view_module C44_mutual (1, 0)) with 0. change (view_module C44_mutual (0, 1)) with 1. split.
    - destruct (I0 f) as [->| ->]; [reflexivity|]. cbn [search has assoc fields C44_mutual flat_map kind_eqb app mref_eqb Nat.eqb andb].
      rewrite IH2. reflexivity.
    - destruct (I1 f) as [->| ->]; [reflexivity|]. cbn [search has assoc fields C44_mutual flat_map kind_eqb app mref_eqb Nat.eqb andb].
      rewrite IH1. reflexivity. }
  intros f g. unfold resolve. destruct (I1 f) as [->| ->]; [reflexivity|].
  unfold find_entry. cbn [search app].
  replace (contents_contains C44_mutual f (Orig 1) "x") with (Some false) by reflexivity.
  unfold contents_contains at 1. cbn [search all_kinds ref_contains]. destruct (V f) as [-> _]. reflexivity.
Qed.
Print Assumptions C44_mutual_refuted.
