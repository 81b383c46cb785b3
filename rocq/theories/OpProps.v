(** Properties C47 (operators) and C48 (comparisons). *)
From Coq Require Import Bool Arith List String Lia.
From Verif Require Import ClsModel ClsSpec ClsProofs OpModel OpSpec OpProofs.
Import ListNotations.

(** Example programs.  Class 0 is object with a pure [__eq__], class 1 is NoneType, the given
    classes follow: base, pure functions, methods. *)
Definition k (base : cid) (f m : list string) : cls :=
  {| c_super := Some (base, []); c_nvars := 0; c_functions := map member_id f; c_methods := map member_id m; c_static := []; c_subs := [] |}.
Definition tab (l : list cls) : table := fun c =>
  match c with
  | 0 => {| c_super := None; c_nvars := 0; c_functions := [member_id "__eq__"]; c_methods := []; c_static := []; c_subs := [] |}
  | 1 => k 0 [] []
  | S (S i) => nth i l (k 0 [] [])
  end.
(** [ps d x] is the declared class of the second parameter, [ts d x] the result type. *)
Definition prog (l : list cls) (ps ts : cid -> nat -> cid) : program :=
  {| classes := tab l; sigs := fun d x => {| s_params := [PClass d; PClass (ps d x)]; s_type := ts d x |};
     builtin := fun c => c <? 2 |}.
(** Methods handle exactly the declared arguments. *)
Definition by_type (P : program) : handling := fun d x c =>
  match s_params (sigs P d x) with [_; p] => belongs (classes P) p c | _ => False end.
Lemma by_type_declared n l ps ts x : declared n (prog l ps ts) (by_type (prog l ps ts)) x.
Proof. intros d D _. exists (PClass (ps d x)). split; [reflexivity|]. intros c C. reflexivity. Qed.
Ltac case_lt c H := repeat (destruct c as [|c]; [|try (exfalso; cbn in H; lia)]).
Ltac wf := constructor; [lia|split; reflexivity|split; reflexivity|
  let c := fresh "c" in let H := fresh "H" in intros c H;
  repeat first [lia|destruct c as [|c];
    [first [lia|eexists _, _; split; [reflexivity|]; split; [lia|]; split; [reflexivity|]; constructor]|]]].
Ltac inh := repeat first [apply inh_refl|eapply inh_step; [reflexivity|]].
(** Decide membership and inheritance in a concrete table. *)
Lemma inherits_dec n tb c d : wf_table n tb -> c < n -> issubtype tb c d = true -> inherits tb c d.
Proof. intros W C. apply (issubtype_spec n tb W); auto. Qed.
Lemma inherits_not n tb c d : wf_table n tb -> c < n -> issubtype tb c d = false -> ~ inherits tb c d.
Proof. intros W C. apply (issubtype_false n tb W); auto. Qed.
Lemma finds_dec n tb c x d : wf_table n tb -> c < n -> c_functions (tb c) = c_functions (tb c) ->
  (forall e, inherits tb c e -> ~ defines_function tb x e) -> get_method tb c x = Some d -> finds tb c x d.
Proof.
  intros W C _ NF G. apply (get_method_spec n tb W) in G as (I & D & M); auto.
  split; auto. split; [now right|]. intros e IE [F|F]; [exfalso; exact (NF e IE F)|auto].
Qed.

Lemma prog_functions l ps ts x : x <> member_id "__eq__" -> Forall (fun c => c_functions c = []) l ->
  forall e, ~ defines_function (classes (prog l ps ts)) x e.
Proof.
  intros N A e H. change (member_id "__eq__") with 0 in N. unfold defines_function in H. cbn in H. destruct e as [|[|e]]; cbn in H; [intuition congruence|tauto|].
  rewrite Forall_forall in A. destruct (nth_in_or_default e l (k 0 [] [])) as [I|E]; [rewrite (A _ I) in H|rewrite E in H]; cbn in H; tauto.
Qed.

(** ** C47 *)

(** The dictionaries hold the names of the language. *)
Theorem C47_names : forall o,
  LEFT_OPERATOR_FUNCTIONS o = special "" o /\ RIGHT_OPERATOR_FUNCTIONS o = special "r" o /\
  INPLACE_OPERATOR_FUNCTIONS o = special "i" o.
Proof. exact (fun o => conj (left_name o) (conj (right_name o) (inplace_name o))). Qed.
Print Assumptions C47_names.
Example C47_names_ex : special "r" FloorDiv = "__rfloordiv__"%string.
Proof. reflexivity. Qed.

(** If the operands are instances of exactly the classes the translator knows, the translated
    operator is the method Python runs, under conditions on redefinitions of the reflected
    method (direct_redefinition, original). *)
Theorem C47_operator_partial : forall n P h o l r s d x, wf_table n (classes P) -> separate n (classes P) -> l < n -> r < n ->
  no_shadow (classes P) (left_id o) l -> no_shadow (classes P) (right_id o) l -> no_shadow (classes P) (right_id o) r ->
  declared n P h (left_id o) -> declared n P h (right_id o) ->
  direct_redefinition P (right_id o) r -> original (classes P) (right_id o) l ->
  py_binop (classes P) h o l r s d x -> translate_operator P o false l r = Calls s d x.
Proof. exact (fun n P h o l r s d x W S => binop_agrees n P W S h o l r s d x). Qed.
Print Assumptions C47_operator_partial.

(** Augmented assignments. *)
Theorem C47_augassign_partial : forall n P h o l r s d x, wf_table n (classes P) -> separate n (classes P) -> l < n -> r < n ->
  no_shadow (classes P) (inplace_id o) l -> declared n P h (inplace_id o) ->
  no_shadow (classes P) (left_id o) l -> no_shadow (classes P) (right_id o) l -> no_shadow (classes P) (right_id o) r ->
  declared n P h (left_id o) -> declared n P h (right_id o) ->
  direct_redefinition P (right_id o) r -> original (classes P) (right_id o) l ->
  py_augassign (classes P) h o l r s d x -> translate_augassign P o false l r = Calls s d x.
Proof. exact (fun n P h o l r s d x W S => augassign_agrees n P W S h o l r s d x). Qed.
Print Assumptions C47_augassign_partial.

(** Class A (2) has [__add__(A)], [__radd__(A)]; B(A) (3) redefines [__radd__(A)]; C (4) is
    unrelated and has [__radd__(A)] and [__iadd__(A)].  A + B runs B.__radd__, A + A runs A.__add__,
    A + C runs C.__radd__, B + A runs A.__add__, C += A runs C.__iadd__. *)
Definition ex : program :=
  prog [k 0 [] ["__add__"; "__radd__"]; k 2 [] ["__radd__"]; k 0 [] ["__radd__"; "__iadd__"]]%string (fun _ _ => 2) (fun d _ => d).
Example ex_wf : wf_table 5 (classes ex). Proof. wf. Qed.
Lemma ex_functions x : x <> member_id "__eq__" -> forall e, ~ defines_function (classes ex) x e.
Proof. intros N. apply prog_functions; auto. Qed.
Example ex_separate : separate 5 (classes ex).
Proof.
  intros c x C F M. do 5 (destruct c as [|c]; [unfold defines_function, defines_method in *; cbn in *; intuition lia|]). lia.
Qed.
Lemma ex_shadow x c : x <> member_id "__eq__" -> no_shadow (classes ex) x c.
Proof. intros N d e _ _ _. now apply ex_functions. Qed.
Lemma ex_finds c x d : x <> member_id "__eq__" -> c < 5 -> get_method (classes ex) c x = Some d -> finds (classes ex) c x d.
Proof. intros N C. apply (finds_dec 5); auto using ex_wf. intros e _. now apply ex_functions. Qed.
Lemma ex_defines_radd e : defines (classes ex) (right_id Add) e -> e = 2 \/ e = 3 \/ e = 4.
Proof.
  intros [H|H]; [exfalso; revert H; apply ex_functions; discriminate|].
  do 5 (destruct e as [|e]; [unfold defines_method in H; cbn in H; intuition lia|]). unfold defines_method in H. cbn in H. destruct e; cbn in H; intuition lia.
Qed.
Example C47_operator_ex :
  direct_redefinition ex (right_id Add) 3 /\ original (classes ex) (right_id Add) 2 /\
  py_binop (classes ex) (by_type ex) Add 2 3 true 3 (right_id Add) /\
  translate_operator ex Add false 2 3 = Calls true 3 (right_id Add) /\
  py_binop (classes ex) (by_type ex) Add 2 2 false 2 (left_id Add) /\
  translate_operator ex Add false 2 2 = Calls false 2 (left_id Add) /\
  translate_operator ex Add false 2 4 = Calls true 4 (right_id Add) /\
  translate_operator ex Add false 3 2 = Calls false 2 (left_id Add).
Proof.
  split; [|split; [|split; [|split; [|split; [|split; [|split]]]]]]; try reflexivity.
  - intros d e I D J N E. apply ex_defines_radd in D. apply ex_defines_radd in E.
    pose proof (inherits_le 5 _ ex_wf 3 d ltac:(lia) I). pose proof (inherits_le 5 _ ex_wf d e ltac:(lia) J).
    assert (d = 3) as -> by lia. split; [reflexivity|]. exists 2. split; [reflexivity|]. right. left. cbn. auto.
  - intros d e (F & _) I D. apply ex_defines_radd in D.
    pose proof (inherits_le 5 _ ex_wf 2 d ltac:(lia) F). pose proof (inherits_le 5 _ ex_wf d e ltac:(lia) I). lia.
  - apply py_reflected_first.
    + split; [discriminate|]. split; [inh|]. exists 3. split; [apply ex_finds; [discriminate|lia|reflexivity]|].
      intros (I & _). pose proof (inherits_le 5 _ ex_wf 2 3 ltac:(lia) I). lia.
    + apply ex_finds; [discriminate|lia|reflexivity].
    + cbn. inh.
  - apply py_left.
    + intros (N & _). congruence.
    + apply ex_finds; [discriminate|lia|reflexivity].
    + cbn. inh.
Qed.
Example C47_augassign_ex :
  py_augassign (classes ex) (by_type ex) Add 4 2 false 4 (inplace_id Add) /\
  translate_augassign ex Add false 4 2 = Calls false 4 (inplace_id Add).
Proof.
  split; [|reflexivity]. apply py_inplace; [apply ex_finds; [discriminate|lia|reflexivity]|]. cbn. inh.
Qed.

(** Operands may also be instances of subclasses [l], [r] of their static types [L], [R].  If the
    operator method of the static type takes the right operand, the types are equal or not in
    the subclass relation, and Python does not prefer a reflected method, the method Python
    runs is the one called or a redefinition of it in a subclass (for which the override
    checks of C42 are made). *)
Theorem C47_subclasses_partial : forall n P h o L R l r s e x, wf_table n (classes P) -> separate n (classes P) ->
  L < n -> R < n -> l < n -> r < n ->
  inherits (classes P) l L -> inherits (classes P) r R -> L = R \/ ~ inherits (classes P) R L ->
  no_shadow (classes P) (left_id o) l -> no_shadow (classes P) (left_id o) L -> declared n P h (left_id o) ->
  (forall d' e' c, inherits (classes P) e' d' -> defines (classes P) (left_id o) d' -> defines (classes P) (left_id o) e' ->
     h d' (left_id o) c -> h e' (left_id o) c) ->
  ~ overloads (classes P) (right_id o) l r ->
  (exists d, finds (classes P) L (left_id o) d /\ h d (left_id o) R) ->
  py_binop (classes P) h o l r s e x ->
  s = false /\ x = left_id o /\
  exists d, translate_operator P o false L R = Calls false d x /\ inherits (classes P) e d.
Proof. exact (fun n P h o L R l r s e x W S => binop_subclasses n P W S h o L R l r s e x). Qed.
Print Assumptions C47_subclasses_partial.
Example C47_subclasses_ex :
  py_binop (classes ex) (by_type ex) Add 3 2 false 2 (left_id Add) /\ ~ overloads (classes ex) (right_id Add) 3 2 /\
  (exists d, finds (classes ex) 2 (left_id Add) d /\ by_type ex d (left_id Add) 2) /\
  inherits (classes ex) 3 2 /\ translate_operator ex Add false 2 2 = Calls false 2 (left_id Add).
Proof.
  assert (~ overloads (classes ex) (right_id Add) 3 2) as NO.
  { intros (_ & I & _). pose proof (inherits_le 5 _ ex_wf 2 3 ltac:(lia) I). lia. }
  split; [|split; [exact NO|split; [|split; [inh|reflexivity]]]].
  - apply py_left; [intros O; contradiction|apply ex_finds; [discriminate|lia|reflexivity]|cbn; inh].
  - exists 2. split; [apply ex_finds; [discriminate|lia|reflexivity]|cbn; inh].
Qed.

(** Python's rule for two objects of static type A one of which is a B(A) with its own
    [__radd__]: B.__radd__ runs, but A.__add__ is the method verified. *)
Theorem C47_subclasses_refuted : exists n P h o L l r d x, wf_table n (classes P) /\ separate n (classes P) /\
  inherits (classes P) l L /\ inherits (classes P) r L /\ (forall y, declared n P h y) /\
  py_binop (classes P) h o l r true d x /\ translate_operator P o false L L = Calls false L (left_id o).
Proof.
  exists 5, ex, (by_type ex), Add, 2, 2, 3, 3, (right_id Add).
  split; [exact ex_wf|]. split; [exact ex_separate|]. split; [inh|]. split; [inh|].
  split; [apply by_type_declared|]. split; [destruct C47_operator_ex as (_ & _ & H & _); exact H|reflexivity].
Qed.
Print Assumptions C47_subclasses_refuted.

(** A (2) has [__add__] and [__radd__], B(A) (3) has neither, C(B) (4) redefines [__radd__].
    A + C runs C.__radd__ in Python; the translation calls A.__add__, because only the direct
    base class is asked for a method of that name. *)
Definition gap : program :=
  prog [k 0 [] ["__add__"; "__radd__"]; k 2 [] []; k 3 [] ["__radd__"]]%string (fun _ _ => 2) (fun d _ => d).
Example gap_wf : wf_table 5 (classes gap). Proof. wf. Qed.
Lemma gap_finds c x d : x <> member_id "__eq__" -> c < 5 -> get_method (classes gap) c x = Some d -> finds (classes gap) c x d.
Proof. intros N C. apply (finds_dec 5); auto using gap_wf. intros e _. apply prog_functions; auto. Qed.
Theorem C47_indirect_redefinition_refuted : exists n P h o l r d, wf_table n (classes P) /\ separate n (classes P) /\
  (forall y, declared n P h y) /\ original (classes P) (right_id o) l /\
  py_binop (classes P) h o l r true d (right_id o) /\ translate_operator P o false l r = Calls false l (left_id o).
Proof.
  exists 5, gap, (by_type gap), Add, 2, 4, 4. split; [exact gap_wf|]. split.
  { intros c x C F M. do 5 (destruct c as [|c]; [unfold defines_function, defines_method in *; cbn in *; intuition lia|]). lia. }
  split; [apply by_type_declared|]. split.
  { intros d e (F & D & _) I E. pose proof (inherits_le 5 _ gap_wf 2 d ltac:(lia) F). pose proof (inherits_le 5 _ gap_wf d e ltac:(lia) I).
    assert (forall c, c < 2 -> ~ defines (classes gap) (right_id Add) c) as ND.
    { intros c C K. destruct c as [|[|c]]; [| |lia]; unfold defines, defines_function, defines_method in K; cbn in K; intuition discriminate. }
    destruct (Nat.lt_ge_cases e 2); [exfalso; eapply ND; eauto|]. lia. }
  split; [|reflexivity]. apply py_reflected_first.
  - split; [discriminate|]. split; [inh|]. exists 4. split; [apply gap_finds; [discriminate|lia|reflexivity]|].
    intros (I & _). pose proof (inherits_le 5 _ gap_wf 2 4 ltac:(lia) I). lia.
  - apply gap_finds; [discriminate|lia|reflexivity].
  - cbn. inh.
Qed.
Print Assumptions C47_indirect_redefinition_refuted.

(** A (2) has [__radd__], B(A) (3) has [__add__] and redefines [__radd__], C(B) (4) has neither.
    B + C runs B.__add__ in Python (C has no [__radd__] of its own); the translation calls the
    reflected method, because B's redefines that of A. *)
Definition inh_op : program :=
  prog [k 0 [] ["__radd__"]; k 2 [] ["__add__"; "__radd__"]; k 3 [] []]%string (fun _ _ => 2) (fun d _ => d).
Example inh_wf : wf_table 5 (classes inh_op). Proof. wf. Qed.
Lemma inh_finds c x d : x <> member_id "__eq__" -> c < 5 -> get_method (classes inh_op) c x = Some d -> finds (classes inh_op) c x d.
Proof. intros N C. apply (finds_dec 5); auto using inh_wf. intros e _. apply prog_functions; auto. Qed.
Theorem C47_inherited_reflected_refuted : exists n P h o l r d, wf_table n (classes P) /\ separate n (classes P) /\
  (forall y, declared n P h y) /\ direct_redefinition P (right_id o) r /\
  py_binop (classes P) h o l r false d (left_id o) /\ translate_operator P o false l r = Calls true d (right_id o).
Proof.
  exists 5, inh_op, (by_type inh_op), Add, 3, 4, 3. split; [exact inh_wf|]. split.
  { intros c x C F M. do 5 (destruct c as [|c]; [unfold defines_function, defines_method in *; cbn in *; intuition lia|]). lia. }
  split; [apply by_type_declared|]. split.
  { intros d e I D J N E. pose proof (inherits_le 5 _ inh_wf 4 d ltac:(lia) I). pose proof (inherits_le 5 _ inh_wf d e ltac:(lia) J).
    assert (forall c, c < 5 -> defines (classes inh_op) (right_id Add) c -> c = 2 \/ c = 3) as ND.
    { intros c C K. do 5 (destruct c as [|c]; [unfold defines, defines_function, defines_method in K; cbn in K; intuition lia|]). lia. }
    apply ND in D; [|lia]. apply ND in E; [|lia]. assert (d = 3) as -> by lia. split; [reflexivity|].
    exists 2. split; [reflexivity|]. right. left. cbn. auto. }
  split; [|reflexivity]. apply py_left.
  - intros (_ & _ & d & F & NF). exfalso. apply NF.
    assert (finds (classes inh_op) 4 (right_id Add) 3) as F3 by (apply inh_finds; [discriminate|lia|reflexivity]).
    rewrite (nearest_unique 5 _ inh_wf _ 4 d 3 ltac:(lia) F F3). apply inh_finds; [discriminate|lia|reflexivity].
  - apply inh_finds; [discriminate|lia|reflexivity].
  - cbn. inh.
Qed.
Print Assumptions C47_inherited_reflected_refuted.

(** The type of the expression is the result type of the method called if that is a reflected
    method or the right operand's type has none ... *)
Theorem C47_type_partial : forall P o l r s d x, translate_operator P o false l r = Calls s d x ->
  s = true \/ l = r \/ get_func_or_method (classes P) r (right_id o) = None ->
  binop_type P o l r = Some (s_type (sigs P d x)).
Proof. exact type_agrees. Qed.
Print Assumptions C47_type_partial.
Example C47_type_ex : translate_operator ex Add false 2 3 = Calls true 3 (right_id Add) /\ binop_type ex Add 2 3 = Some 3.
Proof. split; reflexivity. Qed.
(** ... but A + B is called as A.__add__, with a result of class A, and typed as B.__radd__,
    with a result of class B, when both have a suitable method. *)
Theorem C47_type_refuted : exists n P o l r d x t, wf_table n (classes P) /\
  translate_operator P o false l r = Calls false d x /\ binop_type P o l r = Some t /\
  ~ inherits (classes P) (s_type (sigs P d x)) t.
Proof.
  pose (P := prog [k 0 [] ["__add__"]; k 0 [] ["__radd__"]]%string (fun d _ => if d =? 2 then 3 else 2) (fun d _ => d)).
  assert (wf_table 4 (classes P)) as W by wf.
  exists 4, P, Add, 2, 3, 2, (left_id Add), 3. split; [exact W|]. split; [reflexivity|]. split; [reflexivity|].
  apply (inherits_not 4); auto.
Qed.
Print Assumptions C47_type_refuted.

(** Unary operators. *)
Theorem C47_unary : forall n P o c d, wf_table n (classes P) -> separate n (classes P) -> c < n ->
  no_shadow (classes P) (member_id (py_unary_method o)) c ->
  finds (classes P) c (member_id (py_unary_method o)) d ->
  translate_unary P o c = Calls false d (member_id (py_unary_method o)) /\
  unary_type P o c = Some (s_type (sigs P d (member_id (py_unary_method o)))).
Proof.
  intros n P o c d W S C NS F.
  assert (E : py_unary_method o = unary_func o) by (destruct o; reflexivity).
  rewrite E in *.
  exact (conj (unary_finds n P W S o c d C NS F) (unary_agrees P o c d _ (unary_finds n P W S o c d C NS F))).
Qed.
Print Assumptions C47_unary.
Example C47_unary_ex : let P := prog [k 0 [] ["__neg__"]; k 2 [] []]%string (fun d _ => d) (fun d _ => d) in
  translate_unary P USub 3 = Calls false 2 (member_id "__neg__") /\ unary_type P USub 3 = Some 2 /\ translate_unary P Invert 3 = Rejected.
Proof. repeat split. Qed.

(** ** C48 *)

(** A comparison whose left operand's class has the comparison method, pure and taking the
    right operand, is translated to the method that decides it in Python, provided the right
    operand's class is not a proper subclass. *)
Theorem C48_comparison_partial : forall n P (h : handling) o l r g d x, wf_table n (classes P) -> l < n -> r < n ->
  (r = l \/ ~ inherits (classes P) r l) ->
  (forall e, inherits (classes P) l e -> ~ defines_method (classes P) (compare_id o) e /\ ~ defines_method (classes P) (compare_id Eq) e) ->
  compare_method (classes P) o l g d x -> h d x r -> (forall c, ~ h object_id (compare_id Eq) c) ->
  translate_comparison P o l r = CCalls g d x /\
  forall dec, py_compare (classes P) h o l r dec -> dec = ByMethod false g d x.
Proof. exact (fun n P h o l r g d x W => compare_agrees n P W h o l r g d x). Qed.
Print Assumptions C48_comparison_partial.
(** A (2) has a pure [__eq__(object)] and [__lt__(A)], B (3) nothing. *)
Definition cx : program :=
  prog [k 0 ["__eq__"; "__lt__"] []; k 0 [] []]%string (fun d x => if x =? member_id "__eq__" then 0 else 2) (fun d _ => d).
Definition cx_h : handling := fun d x c => d <> 0 /\ by_type cx d x c.
Example cx_wf : wf_table 4 (classes cx). Proof. wf. Qed.
Lemma cx_methods x e : ~ defines_method (classes cx) x e.
Proof. intros H. unfold defines_method in H. do 4 (destruct e as [|e]; [cbn in H; tauto|]). cbn in H. destruct e; cbn in H; tauto. Qed.
Example C48_comparison_ex :
  compare_method (classes cx) NotEq 2 true 2 (compare_id Eq) /\ cx_h 2 (compare_id Eq) 3 /\ ~ inherits (classes cx) 3 2 /\
  (forall c, ~ cx_h object_id (compare_id Eq) c) /\
  translate_comparison cx NotEq 2 3 = CCalls true 2 (compare_id Eq) /\ translate_comparison cx Lt 2 2 = CCalls false 2 (compare_id Lt) /\
  translate_comparison cx Gt 2 2 = CRejected.
Proof.
  assert (finds (classes cx) 2 (compare_id Eq) 2) as F.
  { split; [inh|]. split; [left; cbn; auto|]. intros e I _. exact I. }
  split; [|split; [|split; [|split; [|repeat split]]]].
  - apply cm_default; auto. intros e (I & D & _). pose proof (inherits_le 4 _ cx_wf 2 e ltac:(lia) I).
    destruct D as [D|D]; [|exact (cx_methods _ _ D)]. unfold defines_function in D.
    do 3 (destruct e as [|e]; [cbn in D; intuition discriminate|]). lia.
  - split; [discriminate|]. cbn. inh.
  - apply (inherits_not 4); auto using cx_wf.
  - intros c [N _]. apply N. reflexivity.
Qed.

(** A comparison is never translated to anything but the left operand's method for that
    comparison (for !=, its negated [__eq__]); without one it is rejected. *)
Theorem C48_own_method : forall n P o l r g d x, wf_table n (classes P) -> l < n ->
  (forall e, inherits (classes P) l e -> ~ defines_method (classes P) (compare_id o) e /\ ~ defines_method (classes P) (compare_id Eq) e) ->
  (translate_comparison P o l r = CCalls g d x \/
   translate_comparison P o l r = CObject g /\ d = object_id /\ x = compare_id Eq) ->
  compare_method (classes P) o l g d x.
Proof. exact (fun n P o l r g d x W => compare_sound n P W o l r g d x). Qed.
Print Assumptions C48_own_method.
Example C48_own_method_ex : translate_comparison cx LtE 2 2 = CRejected /\ compare_method (classes cx) Lt 2 false 2 (compare_id Lt).
Proof.
  split; [reflexivity|]. apply (C48_own_method 4 cx Lt 2 2 false 2 (compare_id Lt) cx_wf); [lia| |left; reflexivity].
  intros e _. split; apply cx_methods.
Qed.

(** Objects whose classes have no comparison methods are compared by identity. *)
Theorem C48_identity : forall n P (h : handling) o l r, wf_table n (classes P) -> l < n -> r < n -> o = Eq \/ o = NotEq ->
  object_compares (classes P) h ->
  (forall o' c e, c = l \/ c = r -> inherits (classes P) c e -> defines (classes P) (compare_id o') e -> e = object_id) ->
  (forall e, inherits (classes P) l e -> ~ defines_method (classes P) (compare_id Eq) e) ->
  translate_comparison P o l r = CObject (match o with NotEq => true | _ => false end) /\
  (forall dec, py_compare (classes P) h o l r dec <-> dec = ByIdentity (match o with NotEq => true | _ => false end)).
Proof. exact (fun n P h o l r W => compare_object n P W h o l r). Qed.
Print Assumptions C48_identity.
(** Identity satisfies the axioms about object___eq__. *)
Theorem C48_object_equality_axioms : forall (Ref : Type) (null : Ref), object_equality_axioms null eq.
Proof. exact @identity_axioms. Qed.
Print Assumptions C48_object_equality_axioms.
Example C48_identity_ex :
  object_compares (classes cx) cx_h /\
  (forall o' c e, c = 3 \/ c = 3 -> inherits (classes cx) c e -> defines (classes cx) (compare_id o') e -> e = object_id) /\
  translate_comparison cx NotEq 3 3 = CObject true /\ py_compare (classes cx) cx_h NotEq 3 3 (ByIdentity true).
Proof.
  assert (object_compares (classes cx) cx_h) as OC.
  { split; [|split].
    - intros o. split.
      + intros [D|D]; [|exfalso; exact (cx_methods _ _ D)]. destruct o; auto; cbn in D; unfold defines_function in D; cbn in D; intuition discriminate.
      + intros ->. left. cbn. auto.
    - cbn. auto.
    - intros c [N _]. apply N. reflexivity. }
  assert (forall o' c e, c = 3 \/ c = 3 -> inherits (classes cx) c e -> defines (classes cx) (compare_id o') e -> e = object_id) as OW.
  { intros o' c e C I [D|D]; [|exfalso; exact (cx_methods _ _ D)]. assert (c = 3) as -> by tauto.
    pose proof (inherits_le 4 _ cx_wf 3 e ltac:(lia) I).
    destruct e as [|[|[|[|e]]]]; [reflexivity| | | |lia]; unfold defines_function in D; cbn in D; try tauto.
    exfalso. revert I. apply (inherits_not 4); auto using cx_wf. }
  split; [exact OC|]. split; [exact OW|]. split; [reflexivity|].
  apply (C48_identity 4 cx cx_h NotEq 3 3 cx_wf ltac:(lia) ltac:(lia) (or_intror eq_refl) OC OW); [|reflexivity].
  intros e _. apply cx_methods.
Qed.

(** A comparison with an object of static type object or NoneType on the left uses
    object___eq__, although the class of the right operand may define [__eq__] and Python then
    calls that: with [class B: def __eq__(self, other: object): return True] the comparison
    [None == B()] is True, but the axioms say it is false. *)
Theorem C48_none_refuted : exists n P (h : handling) r d, wf_table n (classes P) /\ object_compares (classes P) h /\
  translate_comparison P Eq none_id r = CObject false /\
  (forall dec, py_compare (classes P) h Eq none_id r dec <-> dec = ByMethod true false d (compare_id Eq)) /\
  forall (Ref : Type) (null o : Ref) (object_eq : Ref -> Ref -> Prop), object_equality_axioms null object_eq ->
    o <> null -> ~ object_eq null o.
Proof.
  assert (finds (classes cx) 2 (compare_id Eq) 2) as F.
  { split; [inh|]. split; [left; cbn; auto|]. intros e I _. exact I. }
  assert (forall g e y, compare_method (classes cx) Eq 1 g e y -> e = 0) as C1.
  { intros g e y M. inversion M as [d1 G|]; subst; [|discriminate]. destruct G as (I & D & _).
    pose proof (inherits_le 4 _ cx_wf 1 e ltac:(lia) I).
    destruct e as [|[|e]]; [reflexivity| |lia]. destruct D as [D|D]; [cbn in D; destruct D|destruct (cx_methods _ _ D)]. }
  assert (forall g e y, compare_method (classes cx) Eq 2 g e y -> g = false /\ e = 2 /\ y = compare_id Eq) as C2.
  { intros g e y M. inversion M as [d1 G|]; subst; [|discriminate]. repeat split.
    exact (nearest_unique 4 _ cx_wf _ 2 e 2 ltac:(lia) G F). }
  exists 4, cx, cx_h, 2, 2. split; [exact cx_wf|]. split; [exact (proj1 C48_identity_ex)|]. split; [reflexivity|]. split.
  - intros dec. split.
    + intros PY. inversion PY as [g' d' x' NE I CM' H'|g' d' x' _ CM' H'|g' d' x' _ NH CM' H'|EO' NH NH']; subst.
      * exfalso. revert I. apply (inherits_not 4); auto using cx_wf; cbn; lia.
      * exfalso. apply C1 in CM'. subst. destruct H' as [N _]. now apply N.
      * apply C2 in CM' as (-> & -> & ->). reflexivity.
      * exfalso. apply (NH' false 2 (compare_id Eq)); [constructor; exact F|]. split; [discriminate|]. cbn. inh.
    + intros ->. apply pc_reflected.
      * intros [_ I]. revert I. apply (inherits_not 4); auto using cx_wf; cbn; lia.
      * intros g e y M [N _]. apply C1 in M. now apply N.
      * constructor. exact F.
      * split; [discriminate|]. cbn. inh.
  - intros Ref null o object_eq (_ & A) N. apply (A null o). intros [H _]. apply N. now apply H.
Qed.
Print Assumptions C48_none_refuted.

(** object___eq__ is reflexive, but [__eq__] of the class of an object may not be: with a
    static type object the comparison [o == o] is assumed to be true although Python calls the
    method of the object's class. *)
Theorem C48_object_static_type_refuted : exists n P (h : handling) c d, wf_table n (classes P) /\ object_compares (classes P) h /\
  inherits (classes P) c object_id /\
  translate_comparison P Eq object_id object_id = CObject false /\
  py_compare (classes P) h Eq c c (ByMethod false false d (compare_id Eq)) /\ d <> object_id /\
  forall (Ref : Type) (null o : Ref) (object_eq : Ref -> Ref -> Prop), object_equality_axioms null object_eq -> object_eq o o.
Proof.
  exists 4, cx, cx_h, 2, 2. split; [exact cx_wf|]. split; [exact (proj1 C48_identity_ex)|]. split; [inh|]. split; [reflexivity|]. split; [|split].
  - apply pc_left.
    + intros N. congruence.
    + constructor. split; [inh|]. split; [left; cbn; auto|]. intros e I _. exact I.
    + split; [discriminate|]. cbn. inh.
  - discriminate.
  - intros Ref null o object_eq (_ & A). apply (A o o). reflexivity.
Qed.
Print Assumptions C48_object_static_type_refuted.
