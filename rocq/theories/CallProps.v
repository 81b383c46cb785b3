(** C27: binding of call arguments. *)
From Coq Require Import Bool Arith ZArith List Permutation.
From Verif Require Import CallModel CallSpec CallProofs.
Import ListNotations.

(** Every call Python accepts is translated, and every parameter receives what Python
    binds to it: from positional arguments (starred tuples included, and the receiver),
    keywords, defaults, *args and **kwargs.
    Missing: positional-only parameters, [**d] arguments, and defaults in signatures with
    keyword-only parameters (all refuted below); receivers collected by *args. Defaults
    whose translation needs statements are rejected by an assertion. *)
Theorem C27_binding_partial : forall s recv ps ks y,
  wf_sig s -> Forall known ps -> python_binds s (positional recv ps) (named ks) y ->
  (recv = true -> s_pos s <> []) ->
  s_posonly s = [] -> Forall simple ks ->
  (forall x n, ~ In (x, SDefault (DEffect n)) (y_pos y ++ y_kwonly y)) ->
  (s_kwonly s = [] \/ forall x d, ~ In (x, SDefault d) (y_pos y ++ y_kwonly y)) ->
  exists b, translate_call s recv ps ks = Some b /\ agrees s b y.
Proof. exact c27_binding_partial. Qed.
Print Assumptions C27_binding_partial.

(** def m(self, a, b=7, c=8, *args, **kwargs): o.m(e1, *t, d=e4) with t of length 1. *)
Definition demo_sig : sig :=
  {| s_posonly := []; s_pos := [0; 1; 2; 3]; s_defaults := [DConst 7; DConst 8]; s_kwonly := []; s_var := true; s_kw := true |}.
Definition demo_ps : list posarg := [PArg 11; PStar 12 (Some 1)].
Definition demo_ks : list kwarg := [KNamed 9 14].
Definition demo_y : py_bound :=
  {| y_pos := [(0, SRecv); (1, SArg 11); (2, SComp 12 0); (3, SDefault (DConst 8))]; y_kwonly := [];
     y_var := Some []; y_kw := Some [(9, SArg 14)] |}.
Example C27_binding_ex :
  wf_sig demo_sig /\ Forall known demo_ps /\ python_binds demo_sig (positional true demo_ps) (named demo_ks) demo_y /\
  Forall simple demo_ks /\ (forall x n, ~ In (x, SDefault (DEffect n)) (y_pos demo_y ++ y_kwonly demo_y)).
Proof.
  split; [|split; [|split; [|split]]].
  - split; [|cbn; auto]. cbn. repeat constructor; cbn; intuition discriminate.
  - repeat constructor.
  - split; [reflexivity|]. split.
    { intros [|[|[|[|[|k]]]]] x v H; cbn in H; try discriminate; injection H as <- <-; reflexivity. }
    split; [reflexivity|]. split; [intros [|k]; discriminate|].
    split; [repeat constructor; cbn; intuition|]. split; [|split; reflexivity].
    intros [|[|[|[|[|k]]]]] x H _; cbn in H; try discriminate; injection H as <-; reflexivity.
  - repeat constructor.
  - cbn. intros x n. intuition congruence.
Qed.
Example C27_binding_result : translate_call demo_sig true demo_ps demo_ks =
  Some {| r_trace := [11; 12; 14]; r_args := [SRecv; SArg 11; SComp 12 0; SDefault (DConst 8)];
          r_var := Some []; r_kw := Some [(9, SArg 14)] |}.
Proof. reflexivity. Qed.

(** A default of a positional parameter is taken for a keyword-only one:
    def f(a, b=1, [*], c=2); f(e1, b=e2) binds c to 1 (analyzer.py 1077-1080). *)
Definition kwonly_sig : sig :=
  {| s_posonly := []; s_pos := [0; 1]; s_defaults := [DConst 1]; s_kwonly := [(2, Some (DConst 2))]; s_var := false; s_kw := false |}.
Theorem C27_keyword_only_default_refuted : exists s ps ks y b,
  wf_sig s /\ Forall known ps /\ Forall simple ks /\ s_posonly s = [] /\
  python_binds s (positional false ps) (named ks) y /\ translate_call s false ps ks = Some b /\
  In (2, SDefault (DConst 2)) (y_kwonly y) /\ In (2, SDefault (DConst 1)) (combine (viper_params s) (r_args b)).
Proof.
  exists kwonly_sig, [PArg 11], [KNamed 1 12],
    {| y_pos := [(0, SArg 11); (1, SArg 12)]; y_kwonly := [(2, SDefault (DConst 2))]; y_var := None; y_kw := None |}.
  eexists. split; [split; [|cbn; auto]; cbn; repeat constructor; cbn; intuition discriminate|].
  split; [repeat constructor|]. split; [repeat constructor|]. split; [reflexivity|]. split.
  { split; [reflexivity|]. split.
    { intros [|[|[|k]]] x v H; cbn in H; try discriminate; injection H as <- <-; reflexivity. }
    split; [reflexivity|]. split.
    { intros [|[|k]] x v d H H'; cbn in H, H'; try discriminate. injection H as <- <-. injection H' as <-. reflexivity. }
    split; [repeat constructor; cbn; intuition|]. split.
    { intros [|[|[|k]]] x H L; cbn in H; try discriminate; injection H as <-; [reflexivity|cbn in L].
      exfalso. inversion L as [|m L' E]. inversion L'. }
    split; [split; [reflexivity|cbn; auto]|]. split; [reflexivity|].
    cbn. intros x v [E|[]]. injection E as <- _. auto. }
  split; [reflexivity|]. split; [left; reflexivity|]. vm_compute. auto.
Qed.
Print Assumptions C27_keyword_only_default_refuted.

(** A default is lost although Python accepts the call: def f(a=1, [*], b); f(b=e). *)
Theorem C27_default_lost_refuted : exists s ks y,
  wf_sig s /\ Forall simple ks /\ s_posonly s = [] /\
  python_binds s (positional false []) (named ks) y /\ (forall x n, ~ In (x, SDefault (DEffect n)) (y_pos y ++ y_kwonly y)) /\
  translate_call s false [] ks = None.
Proof.
  exists {| s_posonly := []; s_pos := [0]; s_defaults := [DConst 1]; s_kwonly := [(1, None)]; s_var := false; s_kw := false |},
    [KNamed 1 12],
    {| y_pos := [(0, SDefault (DConst 1))]; y_kwonly := [(1, SArg 12)]; y_var := None; y_kw := None |}.
  split; [split; [|cbn; auto]; cbn; repeat constructor; cbn; intuition discriminate|].
  split; [repeat constructor|]. split; [reflexivity|]. split.
  { split; [reflexivity|]. split.
    { intros [|[|k]] x v H; cbn in H; try discriminate; injection H as <- <-; reflexivity. }
    split; [reflexivity|]. split.
    { intros [|[|k]] x v d H H'; cbn in H, H'; try discriminate. injection H as <- <-. injection H' as <-. reflexivity. }
    split; [repeat constructor; cbn; intuition|]. split.
    { intros k x _ L. cbn in L. inversion L. }
    split; [split; [reflexivity|cbn; auto]|]. split; [reflexivity|].
    cbn. intros x v [E|[]]. injection E as <- _. auto. }
  split; [|reflexivity]. cbn. intros x n. intuition congruence.
Qed.
Print Assumptions C27_default_lost_refuted.

(** Positional-only parameters are not seen: def f(a, /, b); f(e1, e2) binds b to e1. *)
Theorem C27_positional_only_refuted : exists s ps y b,
  wf_sig s /\ Forall known ps /\ python_binds s (positional false ps) [] y /\
  translate_call s false ps [] = Some b /\
  In (1, SArg 12) (y_pos y) /\ combine (viper_params s) (r_args b) = [(1, SArg 11)].
Proof.
  exists {| s_posonly := [0]; s_pos := [1]; s_defaults := []; s_kwonly := []; s_var := false; s_kw := false |},
    [PArg 11; PArg 12],
    {| y_pos := [(0, SArg 11); (1, SArg 12)]; y_kwonly := []; y_var := None; y_kw := None |}.
  eexists. split; [split; [|cbn; auto]; cbn; repeat constructor; cbn; intuition discriminate|].
  split; [repeat constructor|]. split.
  { split; [reflexivity|]. split.
    { intros [|[|[|k]]] x v H; cbn in H; try discriminate; injection H as <- <-; reflexivity. }
    split; [reflexivity|]. split; [intros [|k]; discriminate|]. split; [constructor|]. split; [reflexivity|].
    split; [split; [reflexivity|cbn; auto]|]. split; [reflexivity|]. intros x v []. }
  split; [reflexivity|]. split; [right; left; reflexivity|reflexivity].
Qed.
Print Assumptions C27_positional_only_refuted.

(** [**d] is ignored: def f(a=1); f( **d) with d = {'a': 5} binds a to 1. *)
Theorem C27_dict_unpacking_refuted : exists s ks y b,
  wf_sig s /\ python_binds s [] (named ks) y /\ translate_call s false [] ks = Some b /\
  y_pos y = [(0, SItem 12 0)] /\ combine (viper_params s) (r_args b) = [(0, SDefault (DConst 1))].
Proof.
  exists {| s_posonly := []; s_pos := [0]; s_defaults := [DConst 1]; s_kwonly := []; s_var := false; s_kw := false |},
    [KDict 12 [0]],
    {| y_pos := [(0, SItem 12 0)]; y_kwonly := []; y_var := None; y_kw := None |}.
  eexists. split; [split; [|cbn; auto]; cbn; repeat constructor; cbn; intuition discriminate|].
  split.
  { split; [reflexivity|]. split.
    { intros [|[|k]] x v H; cbn in H; try discriminate; injection H as <- <-; reflexivity. }
    split; [reflexivity|]. split; [intros [|k]; discriminate|].
    split; [repeat constructor; cbn; intuition|]. split; [intros k x _ L; cbn in L; inversion L|].
    split; [split; [reflexivity|cbn; auto]|]. split; [reflexivity|].
    cbn. intros x v [E|[]]. injection E as <- _. auto. }
  split; [reflexivity|]. split; reflexivity.
Qed.
Print Assumptions C27_dict_unpacking_refuted.

(** A default that reads a global variable is evaluated at the call instead of at the
    definition. *)
Theorem C27_default_time_refuted : exists d at_def at_call v w,
  python_default d at_def at_call = Some v /\ default_value d at_def at_call = Some w /\ v <> w.
Proof. exists (DGlobal 0), (fun _ => 1), (fun _ => 2), 1, 2. repeat split. discriminate. Qed.
Print Assumptions C27_default_time_refuted.

(** ** Evaluation of the arguments *)

(** Every argument expression is evaluated exactly once. *)
Theorem C27_evaluated_once_partial : forall s recv ps ks y b,
  wf_sig s -> Forall known ps -> python_binds s (positional recv ps) (named ks) y ->
  (recv = true -> s_pos s <> []) ->
  s_posonly s = [] -> Forall simple ks ->
  (forall x n, ~ In (x, SDefault (DEffect n)) (y_pos y ++ y_kwonly y)) ->
  (s_kwonly s = [] \/ forall x d, ~ In (x, SDefault d) (y_pos y ++ y_kwonly y)) ->
  translate_call s recv ps ks = Some b -> Permutation (r_trace b) (python_order ps ks).
Proof. exact c27_once_partial. Qed.
Print Assumptions C27_evaluated_once_partial.

(** In Python's order, if there is no **kwargs or its keywords come last. *)
Theorem C27_order_partial : forall s recv ps ks y b,
  wf_sig s -> Forall known ps -> python_binds s (positional recv ps) (named ks) y ->
  (recv = true -> s_pos s <> []) ->
  s_posonly s = [] -> Forall simple ks ->
  (forall x n, ~ In (x, SDefault (DEffect n)) (y_pos y ++ y_kwonly y)) ->
  (s_kwonly s = [] \/ forall x d, ~ In (x, SDefault d) (y_pos y ++ y_kwonly y)) ->
  (s_kw s = false \/ exists k1 k2, ks = k1 ++ k2 /\ (forall c, In c k1 -> In (kw_name c) (keyword_params s)) /\
                                   (forall c, In c k2 -> ~ In (kw_name c) (keyword_params s))) ->
  translate_call s recv ps ks = Some b -> r_trace b = python_order ps ks.
Proof. exact c27_order_partial. Qed.
Print Assumptions C27_order_partial.
Example C27_order_ex : exists k1 k2, demo_ks = k1 ++ k2 /\ (forall c, In c k1 -> In (kw_name c) (keyword_params demo_sig)) /\
                                   (forall c, In c k2 -> ~ In (kw_name c) (keyword_params demo_sig)).
Proof. exists [], demo_ks. split; [reflexivity|]. split; [intros c []|]. intros c [<-|[]]. cbn. intuition discriminate. Qed.

(** def f(a, **kw): f(z=e1, a=e2) evaluates e2 first. *)
Theorem C27_order_refuted : exists s ks y b,
  wf_sig s /\ Forall simple ks /\ python_binds s [] (named ks) y /\ translate_call s false [] ks = Some b /\
  python_order [] ks = [11; 12] /\ r_trace b = [12; 11].
Proof.
  exists {| s_posonly := []; s_pos := [0]; s_defaults := []; s_kwonly := []; s_var := false; s_kw := true |},
    [KNamed 5 11; KNamed 0 12],
    {| y_pos := [(0, SArg 12)]; y_kwonly := []; y_var := None; y_kw := Some [(5, SArg 11)] |}.
  eexists. split; [split; [|cbn; auto]; cbn; repeat constructor; cbn; intuition discriminate|].
  split; [repeat constructor|]. split.
  { split; [reflexivity|]. split.
    { intros [|[|k]] x v H; cbn in H; try discriminate; injection H as <- <-; reflexivity. }
    split; [reflexivity|]. split; [intros [|k]; discriminate|].
    split; [cbn; repeat constructor; cbn; intuition discriminate|]. split; [intros k x _ L; cbn in L; inversion L|].
    split; [split; [reflexivity|cbn; auto]|]. reflexivity. }
  split; [reflexivity|]. split; reflexivity.
Qed.
Print Assumptions C27_order_refuted.

(** Builtin functions get the positional arguments in order, padded with null to the
    declared number; keywords are rejected. *)
Theorem C27_builtin : forall t implicit ps ks b, t_interface t = true -> Forall known ps ->
  translate_args t implicit ps ks = Some b ->
  ks = [] /\ r_trace b = map pos_expr ps /\
  exists m, r_args b = flat_map components ps ++ repeat SNull m /\ Z.of_nat (length (r_args b)) = t_nargs t.
Proof. exact c27_builtin. Qed.
Print Assumptions C27_builtin.
Example C27_builtin_ex :
  translate_args {| t_args := []; t_nargs := 3; t_var := false; t_kw := false; t_interface := true |} false
    [PArg 1; PStar 2 (Some 1)] [] =
  Some {| r_trace := [1; 2]; r_args := [SArg 1; SComp 2 0; SNull]; r_var := None; r_kw := None |}.
Proof. reflexivity. Qed.
