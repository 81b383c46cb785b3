(** The statements used by AdtProps.v, put together from the other files. *)
From Coq Require Import List String NArith Bool.
From Verif Require Import AdtModel AdtSpec AdtProofs AdtUseProofs AdtConsProofs AdtNamesProofs.
Import ListNotations.

Lemma built_equality : forall w p ds axs I a c c' e ts ts',
  wf_world w p -> create_adts p = Some (ds, axs) -> is_model w I ds axs ->
  In a p -> In c (a_cons a) -> In c' (a_cons a) -> args_ok w I e a c ts -> args_ok w I e a c' ts' ->
  (holds w I (py_eq (py_cons a c ts) (py_cons a c' ts')) e <->
   c = c' /\ Forall2 (fun t t' => holds w I (py_eq t t') e) ts ts').
Proof.
  intros w p ds axs I a c c' e ts ts' W C M Ha Hc Hc' O O'.
  assert (E : Forall2 (fun t t' => holds w I (py_eq t t') e) ts ts' <-> map (ev I e) ts = map (ev I e) ts').
  { clear. revert ts'. induction ts as [|t ts IH]; intros [|t' ts']; simpl; split; intro H; try (inversion H; fail); auto.
    - inversion H; subst. f_equal; [assumption|apply IH; auto].
    - injection H as E1 E2. constructor; [exact E1|apply IH; auto]. }
  rewrite E. exact (built_eq w p I ds axs W C M a Ha e e c c' ts ts' Hc Hc' O O').
Qed.

Lemma consistent_iff : forall w p ds axs,
  wf_world w p -> create_adts p = Some (ds, axs) -> names_distinct ds ->
  ((exists I, is_model w I ds axs) <-> class_fields_universal w p).
Proof.
  exact (fun w p ds axs W C N => conj
    (fun H => match H with ex_intro _ J M => needs_universal w p J ds axs C M end)
    (fun U => ex_intro _ (tI w p) (consistent w p ds axs W C N U))).
Qed.

Lemma consistent_simple : forall w p ds axs,
  wf_world w p -> create_adts p = Some (ds, axs) ->
  (forall a, In a p -> simple_names a) -> no_class_fields p ->
  exists I, is_model w I ds axs.
Proof.
  intros w p ds axs W C N NC.
  apply (consistent_iff w p ds axs W C (program_names p ds axs C (ww_adts _ _ W) N)).
  intros a c f k Ha Hc Hf E. exfalso. exact (NC a c f k Ha Hc Hf E).
Qed.
