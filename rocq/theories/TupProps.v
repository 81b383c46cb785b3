(** Property C74: tuple types and type tests for annotations. *)
From Coq Require Import Bool Arith List Lia ZArith.
From Verif Require Import ClsModel ClsSpec TupSpec TupModel TupProofs TupConsProofs.
Import ListNotations.

(** Classes: object, NoneType, int, bool(int), str, Box[T]. *)
Definition mk (s : option (cid * list texpr)) (k : nat) : cls :=
  {| c_super := s; c_nvars := k; c_functions := []; c_methods := []; c_static := []; c_subs := [] |}.
Definition ex : table := fun c =>
  match c with
  | 0 => mk None 0
  | 3 => mk (Some (2, [])) 0
  | 5 => mk (Some (0, [])) 1
  | _ => mk (Some (0, [])) 0
  end.
Definition int_ := AObj (TApp 2 []).
Definition bool_ := AObj (TApp 3 []).
Definition str_ := AObj (TApp 4 []).
Example ex_wf : wf_table 6 ex.
Proof.
  constructor; [lia|split; reflexivity|split; reflexivity|].
  intros c H. do 6 (destruct c as [|c]; [first [lia|eexists _, _; split; [reflexivity|]; split; [lia|]; split; [reflexivity|constructor]]|]). lia.
Qed.
Example ex_final : none_final 6 ex.
Proof. intros c H. do 6 (destruct c as [|c]; [discriminate|]). lia. Qed.

(** ** The facts that every Viper program assumes about tuple types are contradictory *)
Theorem C74_axioms_consistent_refuted : forall n tb, wf_table n tb ->
  ~ exists I T, class_axioms n tb I /\ tuple_axioms I T n tb.
Proof. intros n tb WF (I & T & AX & CA & _ & H). exact (contradiction_1 n tb I T AX CA H). Qed.
Print Assumptions C74_axioms_consistent_refuted.
Example C74_axioms_consistent_refuted_ex : ~ exists I T, class_axioms 6 ex I /\ tuple_axioms I T 6 ex.
Proof. exact (C74_axioms_consistent_refuted 6 ex ex_wf). Qed.

(** Each of two axioms contradicts the rest on its own: the one about the type arguments of
    subtypes of Tuple[t, ...] ... *)
Theorem C74_args_subtype_2_refuted : forall n tb I T, wf_table n tb -> class_axioms n tb I -> common_axioms I T n tb ->
  ~ ax_args_subtype_2 I T.
Proof. exact (fun n tb I T W A C => contradiction_1 n tb I T A C). Qed.
Print Assumptions C74_args_subtype_2_refuted.
(** ... and the one about elements of Tuple[t, ...], which has no bound on the index. *)
Theorem C74_arg_def_2_refuted : forall n tb I T c, wf_table n tb -> class_axioms n tb I -> common_axioms I T n tb ->
  c < n -> c <> none_id -> c_super (tb c) = Some (object_id, []) -> c_nvars (tb c) = 0 ->
  ~ ax_arg_def_2 I T.
Proof. exact (fun n tb I T c W A C => contradiction_2 n tb W I T A C c). Qed.
Print Assumptions C74_arg_def_2_refuted.

(** With weaker versions of the two (and of the axiom about unions, compare C28) there is no
    contradiction, whatever the classes, and every value is the value of some reference. *)
Theorem C74_repaired_consistent : forall n tb, wf_table n tb -> none_final n tb ->
  exists I T, weak_axioms I T n tb /\ forall v, good_val n tb v -> exists r, stands_for I T r v.
Proof.
  exact (fun n tb W NF => ex_intro _ (model n tb) (ex_intro _ (tmodel n tb)
    (conj (tmodel_ok n tb W) (fun v => stands_exists n tb W v NF)))).
Qed.
Print Assumptions C74_repaired_consistent.
Example C74_repaired_consistent_ex : exists I T, weak_axioms I T 6 ex /\
  exists r, stands_for I T r (VTuple [VObj (TApp 3 []); VTuple []; VNone]).
Proof.
  destruct (C74_repaired_consistent 6 ex ex_wf ex_final) as (I & T & A & H). exists I, T. split; auto. apply H.
  repeat constructor; try discriminate; lia.
Qed.
(** They contradict the axioms as they are, so the example also witnesses the hypotheses of
    the two refutations. *)
Example C74_args_subtype_2_refuted_ex : exists I T, class_axioms 6 ex I /\ common_axioms I T 6 ex /\
  ~ ax_args_subtype_2 I T /\ ~ ax_arg_def_2 I T.
Proof.
  destruct C74_repaired_consistent_ex as (I & T & (A & C & _) & _). exists I, T. split; [exact A|split; [exact C|split]].
  - exact (C74_args_subtype_2_refuted 6 ex I T ex_wf A C).
  - apply (C74_arg_def_2_refuted 6 ex I T 2 ex_wf A C); try reflexivity; [lia|discriminate].
Qed.

(** ** Under these axioms the type test for an annotation holds of exactly the references
    whose values have the type *)
Theorem C74_type_check_partial : forall n tb I T, wf_table n tb -> none_final n tb -> weak_axioms I T n tb ->
  forall a r v P, good_ann n tb a -> good_val n tb v -> stands_for I T r v ->
  type_check tb I T r a = Some P -> (P <-> member tb v a).
Proof. exact type_check_weak. Qed.
Print Assumptions C74_type_check_partial.
Example C74_type_check_ex : exists I T r P, weak_axioms I T 6 ex /\
  stands_for I T r (VTuple [VObj (TApp 3 []); VNone]) /\
  type_check ex I T r (ATuple [int_; AUnion [str_; ANone]]) = Some P /\ P /\
  member ex (VTuple [VObj (TApp 3 []); VNone]) (ATupleVar (AOpt int_)) /\
  ~ member ex (VTuple [VObj (TApp 3 []); VNone]) (ATuple [int_]).
Proof.
  destruct (C74_repaired_consistent 6 ex ex_wf ex_final) as (I & T & A & H).
  assert (good_val 6 ex (VTuple [VObj (TApp 3 []); VNone])) as G by (repeat constructor; try discriminate; lia).
  destruct (H _ G) as (r & R). exists I, T, r. eexists. split; [exact A|]. split; [exact R|]. split; [reflexivity|].
  assert (below ex (TApp 3 []) (TApp 2 [])) as B by (eapply below_step; [reflexivity|constructor]).
  split.
  - eapply (C74_type_check_partial 6 ex I T ex_wf ex_final A (ATuple [int_; AUnion [str_; ANone]])); [|exact G|exact R|reflexivity|].
    + repeat constructor; try discriminate; lia.
    + cbn. auto.
  - split; [|cbn; tauto]. cbn. apply Forall_cons; [auto|]. apply Forall_cons; [auto|constructor].
Qed.

(** Every annotation has a type test if its unions have at most four members, not all of
    them tuple types or None ... *)
Theorem C74_type_check_exists_partial : forall n tb I T r a, wf_table n tb -> good_ann n tb a ->
  (expressible a \/ exists b, a = AOpt b /\ expressible b) -> exists P, type_check tb I T r a = Some P.
Proof. exact (fun n tb I T r a W => type_check_some n tb W I T r a). Qed.
Print Assumptions C74_type_check_exists_partial.
Example C74_type_check_exists_ex : good_ann 6 ex (AOpt (ATuple [AUnion [ATuple [int_]; str_; ANone]])) /\
  expressible (ATuple [AUnion [ATuple [int_]; str_; ANone]]).
Proof.
  split.
  - repeat constructor; try discriminate; lia.
  - repeat constructor. apply pl_union with str_; cbn; auto. constructor.
Qed.
(** ... but not in general: unions of tuple types, and unions of five members. *)
Theorem C74_type_check_exists_refuted : exists n tb, wf_table n tb /\
  (exists a, good_ann n tb a /\ a = AUnion [ATuple [int_]; ATuple [int_; str_]] /\
     forall I T r, type_check tb I T r a = None) /\
  (exists a, good_ann n tb a /\ a = AUnion [int_; str_; bool_; ANone; ATuple []] /\
     forall I T r, type_check tb I T r a = None) /\
  (exists a, good_ann n tb a /\ a = ATupleVar (AOpt (ATuple [int_])) /\ forall I T r, type_check tb I T r a = None).
Proof.
  exists 6, ex. split; [exact ex_wf|]. repeat split; eexists; (split; [|split; [reflexivity|reflexivity]]);
    repeat constructor; try discriminate; lia.
Qed.
Print Assumptions C74_type_check_exists_refuted.

(** ** Starred arguments: the number of arguments is the number of elements *)
Theorem C74_starred_partial : forall t m k, starred t = Some m -> may_have t k -> m = k.
Proof. exact starred_exact. Qed.
Print Assumptions C74_starred_partial.
Example C74_starred_ex : starred (GTuple [GClass 2; GClass 4] true) = Some 2 /\ starred (GTuple [GClass 2] false) = None.
Proof. split; reflexivity. Qed.
(** Also for members of generic objects, if their declared types have a fixed length ... *)
Theorem C74_starred_member_partial : forall types t m k,
  (exists args, t = GTuple args true) \/ contains_type_var t = false ->
  may_have t k -> starred (member_type types t) = Some m -> m = k.
Proof. exact starred_member. Qed.
Print Assumptions C74_starred_member_partial.
Example C74_starred_member_ex :
  starred (member_type (fun _ => Some (GClass 2)) (GTuple [GVar 0; GClass 4] true)) = Some 2.
Proof. reflexivity. Qed.
(** ... but a member declared as Tuple[T, ...] is taken to have exactly one element. *)
Theorem C74_starred_member_refuted : exists types t m k,
  may_have t k /\ starred (member_type types t) = Some m /\ m <> k.
Proof. exists (fun _ => Some (GClass 2)), (GTuple [GVar 0] false), 1, 2. repeat split. discriminate. Qed.
Print Assumptions C74_starred_member_refuted.
