(** Properties C28 (classes), C42 (override checks), C43 (dispatch on union receivers). *)
From Coq Require Import Bool Arith List Permutation Lia.
From Verif Require Import ClsModel ClsSpec ClsProofs ClsAxProofs ClsConsProofs.
Import ListNotations.

(** Example tables.  The classes 2.. of [ex]: A with a method 10 and a function 20; B(A);
    C(B) with a method 10; D(A) with a method 30; Box[T]; Pair[S, T](Box[S]); IBox(Box[A]). *)
Definition mk (s : option (cid * list texpr)) (k : nat) (f m : list nat) (subs : list cid) : cls :=
  {| c_super := s; c_nvars := k; c_functions := f; c_methods := m; c_static := []; c_subs := subs |}.
Definition ex : table := fun c =>
  match c with
  | 0 => mk None 0 [] [] [1; 2; 6; 3]
  | 1 => mk (Some (0, [])) 0 [] [] []
  | 2 => mk (Some (0, [])) 0 [20] [10] [3; 5]
  | 3 => mk (Some (2, [])) 0 [] [] [4]
  | 4 => mk (Some (3, [])) 0 [] [10] []
  | 5 => mk (Some (2, [])) 0 [] [30] []
  | 6 => mk (Some (0, [])) 1 [] [] [7; 8]
  | 7 => mk (Some (6, [TVar 0])) 2 [] [] []
  | 8 => mk (Some (6, [TApp 2 []])) 0 [] [] []
  | _ => mk (Some (0, [])) 0 [] [] []
  end.
Ltac wf_tac := constructor; [lia|split; reflexivity|split; reflexivity|
  let c := fresh "c" in let H := fresh "H" in intros c H;
  repeat first [lia|destruct c as [|c];
    [first [lia|eexists _, _; split; [reflexivity|]; split; [lia|]; split; [reflexivity|];
            repeat first [constructor|cbn; lia]]|]]].
Example ex_wf : wf_table 9 ex.
Proof. wf_tac. Qed.
Example ex_subs : wf_subs 9 ex.
Proof.
  split.
  - intros c d C H. do 9 (destruct c as [|c]; [cbn in H;
      repeat match goal with H : _ \/ _ |- _ => destruct H | H : False |- _ => destruct H end; subst;
      (split; [lia|]; split; [lia|]; repeat first [apply inh_refl|eapply inh_step; [reflexivity|]])|]). lia.
  - intros c d D H. do 9 (destruct d as [|d]; [unfold superclass in H; cbn in H; first [discriminate|injection H as <-; cbn; auto 10]|]). lia.
Qed.

(** ** C28: subtyping of classes is inheritance *)
Theorem C28_issubtype : forall n tb c d, wf_table n tb -> c < n -> (issubtype tb c d = true <-> inherits tb c d).
Proof. exact (fun n tb c d W => issubtype_spec n tb W c d). Qed.
Print Assumptions C28_issubtype.
Example C28_issubtype_ex : issubtype ex 4 2 = true /\ issubtype ex 4 5 = false /\ issubtype ex 2 4 = false.
Proof. repeat split. Qed.

(** Also for types with type arguments against a class. *)
Theorem C28_issubtype_class : forall n tb t d, wf_table n tb -> (match t with PCls c | PGen c _ => c end) < n ->
  (ptype_issubtype tb t (PCls d) = true <-> inherits tb (match t with PCls c | PGen c _ => c end) d).
Proof. exact (fun n tb t d W => ptype_issubtype_cls n tb W t d). Qed.
Print Assumptions C28_issubtype_class.
Example C28_issubtype_class_ex :
  ptype_issubtype ex (PGen 7 [TApp 3 []; TApp 4 []]) (PCls 6) = true /\ ptype_issubtype ex (PCls 8) (PCls 6) = true /\
  ptype_issubtype ex (PCls 8) (PCls 2) = false.
Proof. repeat split. Qed.

(** Against a type with arguments the answer is right when the bases in between hand their
    type arguments on unchanged ... *)
Theorem C28_issubtype_generic_partial : forall n tb, wf_table n tb -> forall c d args bs,
  c < n -> length args = c_nvars (tb c) ->
  (forall e p l, inherits tb c e -> e <> d -> inherits tb e d -> c_super (tb e) = Some (p, l) -> l = vars (c_nvars (tb e))) ->
  (ptype_issubtype tb (PGen c args) (PGen d bs) = true <-> below tb (TApp c args) (TApp d bs)).
Proof. exact generic_passes. Qed.
Print Assumptions C28_issubtype_generic_partial.
Example C28_issubtype_generic_ex : exists tb, wf_table 4 tb /\
  (forall e p l, inherits tb 3 e -> e <> 2 -> inherits tb e 2 -> c_super (tb e) = Some (p, l) -> l = vars (c_nvars (tb e))) /\
  ptype_issubtype tb (PGen 3 [TApp 1 []]) (PGen 2 [TApp 1 []]) = true /\
  ptype_issubtype tb (PGen 3 [TApp 1 []]) (PGen 2 [TApp 0 []]) = false.
Proof.
  exists (fun c => match c with 0 => mk None 0 [] [] [1; 2] | 1 => mk (Some (0, [])) 0 [] [] []
                  | 2 => mk (Some (0, [])) 1 [] [] [] | 3 => mk (Some (2, [TVar 0])) 1 [] [] []
                  | _ => mk (Some (0, [])) 0 [] [] [] end).
  split; [wf_tac|]. split; [|split; reflexivity].
  intros e p l H1 H2 H3 H4. inversion H1; subst.
  - cbn in H4. injection H4 as <- <-. reflexivity.
  - cbn in H. injection H as <-. inversion H0; subst; [congruence|]. cbn in H. injection H as <-.
    inversion H5; subst; [discriminate|discriminate].
Qed.

(** ... and wrong both ways otherwise: with class Sub(Generic[T], Box[A]), Sub[B] counts as a
    Box[B], which it is not, and not as a Box[A], which it is. *)
Theorem C28_issubtype_generic_refuted : exists n tb c d a b,
  wf_table n tb /\ wf_texpr n tb 0 (TApp c [b]) /\ wf_texpr n tb 0 (TApp d [a]) /\ wf_texpr n tb 0 (TApp d [b]) /\
  ptype_issubtype tb (PGen c [b]) (PGen d [b]) = true /\ ~ below tb (TApp c [b]) (TApp d [b]) /\
  ptype_issubtype tb (PGen c [b]) (PGen d [a]) = false /\ below tb (TApp c [b]) (TApp d [a]).
Proof.
  exists 5, (fun c => match c with 0 => mk None 0 [] [] [1; 2; 3] | 1 => mk (Some (0, [])) 0 [] [] []
                  | 2 => mk (Some (0, [])) 0 [] [] [] | 3 => mk (Some (0, [])) 1 [] [] [4]
                  | 4 => mk (Some (3, [TApp 2 []])) 1 [] [] []
                  | _ => mk (Some (0, [])) 0 [] [] [] end), 4, 3, (TApp 2 []), (TApp 1 []).
  split; [wf_tac|]. do 3 (split; [repeat first [constructor|cbn; lia]|]).
  split; [reflexivity|]. split.
  - intros H. repeat (apply below_inv in H as [H|(b & E & H)]; [discriminate|]; cbn in E; try discriminate; injection E as <-).
  - split; [reflexivity|]. eapply below_step; [reflexivity|]. cbn. constructor.
Qed.
Print Assumptions C28_issubtype_generic_refuted.

(** The instantiated base of a generic type is right if its arguments are type variables or
    contain none ... *)
Theorem C28_generic_superclass_partial : forall tb c args p l, c_super (tb c) = Some (p, l) ->
  Forall (fun t => match t with TVar _ => True | _ => no_var t = true end) l ->
  exists t, generic_superclass tb c args = Some t /\ ptype_texpr t = TApp p (map (inst args) l).
Proof. exact generic_superclass_spec. Qed.
Print Assumptions C28_generic_superclass_partial.
Example C28_generic_superclass_ex : generic_superclass ex 7 [TApp 3 []; TApp 4 []] = Some (PGen 6 [TApp 3 []]).
Proof. reflexivity. Qed.
(** ... and keeps a free type variable with class Sub(Generic[T], Box[Box[T]]). *)
Theorem C28_generic_superclass_refuted : exists n tb c args p l, wf_table n tb /\
  wf_texpr n tb 0 (TApp c args) /\ c_super (tb c) = Some (p, l) /\
  forall t, generic_superclass tb c args = Some t -> ptype_texpr t <> TApp p (map (inst args) l).
Proof.
  exists 4, (fun c => match c with 0 => mk None 0 [] [] [1; 2] | 1 => mk (Some (0, [])) 0 [] [] []
                  | 2 => mk (Some (0, [])) 1 [] [] [3] | 3 => mk (Some (2, [TApp 2 [TVar 0]])) 1 [] [] []
                  | _ => mk (Some (0, [])) 0 [] [] [] end), 3, [TApp 1 []], 2, [TApp 2 [TVar 0]].
  split; [wf_tac|]. split; [repeat first [constructor|cbn; lia]|]. split; [reflexivity|].
  intros t [= <-]. cbn. discriminate.
Qed.
Print Assumptions C28_generic_superclass_refuted.

(** The class whose members a union offers is the least common superclass. *)
Theorem C28_common_superclass : forall n tb c d, wf_table n tb -> c < n -> d < n ->
  exists a, get_common_superclass tb c d = Some a /\ least_common tb [c; d] a.
Proof. exact (fun n tb c d W => common_spec n tb W c d). Qed.
Print Assumptions C28_common_superclass.
Example C28_common_superclass_ex : get_common_superclass ex 4 5 = Some 2 /\ get_common_superclass ex 7 4 = Some 0.
Proof. split; reflexivity. Qed.
Theorem C28_union_class : forall n tb l, wf_table n tb -> l <> [] -> (forall c, In c l -> c < n) ->
  exists a, union_cls tb l = Some a /\ least_common tb l a.
Proof. exact (fun n tb l W => union_cls_spec n tb W l). Qed.
Print Assumptions C28_union_class.
Example C28_union_class_ex : union_cls ex [4; 3; 5] = Some 2.
Proof. reflexivity. Qed.

(** Lookups find the nearest definition on the way to object. *)
Theorem C28_get_member : forall n tb sel c x d, wf_table n tb -> c < n ->
  (lookup_f (S c) sel tb c x = Some d <-> nearest tb (fun e => In x (sel (tb e))) c d).
Proof. exact (fun n tb sel c x d W L => lookup_spec n tb W sel (S c) c x d L (Nat.lt_succ_diag_r c)). Qed.
Print Assumptions C28_get_member.
Theorem C28_get_member_none : forall n tb sel c x, wf_table n tb -> c < n ->
  (lookup_f (S c) sel tb c x = None <-> forall d, inherits tb c d -> ~ In x (sel (tb d))).
Proof. exact (fun n tb sel c x W L => lookup_none n tb W sel (S c) c x L (Nat.lt_succ_diag_r c)). Qed.
Print Assumptions C28_get_member_none.
Theorem C28_get_method : forall n tb c x d, wf_table n tb -> c < n ->
  (get_method tb c x = Some d <-> nearest tb (defines_method tb x) c d).
Proof. exact (fun n tb c x d W => get_method_spec n tb W c x d). Qed.
Print Assumptions C28_get_method.
Theorem C28_get_method_none : forall n tb c x, wf_table n tb -> c < n ->
  (get_method tb c x = None <-> forall d, inherits tb c d -> ~ defines_method tb x d).
Proof. exact (fun n tb c x W => get_method_none n tb W c x). Qed.
Print Assumptions C28_get_method_none.
Example C28_get_method_ex : get_method ex 4 10 = Some 4 /\ get_method ex 3 10 = Some 2 /\ get_method ex 5 31 = None.
Proof. repeat split. Qed.

(** A call resolves to the nearest function or method if every class between two
    definitions of the name defines it too ... *)
Theorem C28_get_func_or_method_partial : forall n tb c x d, wf_table n tb -> c < n ->
  accepted n tb -> separate n tb ->
  (forall a b e, inherits tb c a -> inherits tb a b -> inherits tb b e -> defines tb x a -> defines tb x e -> defines tb x b) ->
  (get_func_or_method tb c x = Some d <-> nearest tb (defines tb x) c d).
Proof. exact (fun n tb c x d W L A S G => get_func_or_method_spec n tb W c x L S (accepted_no_shadow n tb W c x L A S G) d). Qed.
Print Assumptions C28_get_func_or_method_partial.
Example C28_get_func_or_method_ex : separate 9 ex /\ accepted 9 ex /\ get_func_or_method ex 3 20 = Some 2 /\ get_func_or_method ex 4 10 = Some 4.
Proof.
  split; [|split; [|split; reflexivity]].
  - intros c x C F M. unfold defines_method, defines_function in *.
    do 9 (destruct c as [|c]; [cbn in *; intuition (subst; discriminate)|]). lia.
  - intros c x C F. unfold defines, defines_method, defines_function in F.
    do 9 (destruct c as [|c]; [cbn in F; destruct F as [F|[F|F]]; repeat (destruct F as [<-|F]; [reflexivity|]); destruct F|]). lia.
Qed.
(** ... otherwise an accepted program can resolve a call to a function of a superclass
    although the class itself redefines the name. *)
Theorem C28_get_func_or_method_refuted : exists n tb c x, wf_table n tb /\ c < n /\ accepted n tb /\ separate n tb /\
  nearest tb (defines tb x) c c /\ get_func_or_method tb c x <> Some c.
Proof.
  exists 5, (fun c => match c with 0 => mk None 0 [] [] [1; 2] | 1 => mk (Some (0, [])) 0 [] [] []
                  | 2 => mk (Some (0, [])) 0 [20] [] [3] | 3 => mk (Some (2, [])) 0 [] [] [4]
                  | 4 => mk (Some (3, [])) 0 [] [20] []
                  | _ => mk (Some (0, [])) 0 [] [] [] end), 4, 20.
  split; [wf_tac|]. split; [lia|]. split.
  { intros c x C F. unfold defines, defines_method, defines_function in F.
    do 5 (destruct c as [|c]; [cbn in F; destruct F as [F|[F|F]]; repeat (destruct F as [<-|F]; [reflexivity|]); destruct F|]). lia. }
  split.
  { intros c x C F M. unfold defines_method, defines_function in *.
    do 5 (destruct c as [|c]; [cbn in *; intuition (subst; discriminate)|]). lia. }
  split; [|discriminate]. split; [constructor|]. split; [right; left; now left|]. auto.
Qed.
Print Assumptions C28_get_func_or_method_refuted.

Theorem C28_all_subclasses : forall n tb c d, wf_table n tb -> wf_subs n tb -> c < n ->
  (In d (all_subclasses n tb c) <-> d < n /\ inherits tb d c).
Proof. exact (fun n tb c d W S => all_subclasses_spec n tb W S c d). Qed.
Print Assumptions C28_all_subclasses.
Example C28_all_subclasses_ex : all_subclasses 9 ex 2 = [2; 3; 4; 5].
Proof. reflexivity. Qed.

(** *** The PyType domain *)

(** Without the axioms about unions, the domain knows a class type to be a subtype of another
    exactly if it inherits from it, whatever interpretation the verifier has in mind. *)
Theorem C28_domain_subtype : forall n tb I t u, wf_table n tb -> class_axioms n tb I ->
  wf_texpr n tb 0 t -> wf_texpr n tb 0 u ->
  (subtype I (denote I t) (denote I u) = true <-> below tb t u).
Proof. exact (fun n tb I t u W A => subtype_iff n tb W I A t u). Qed.
Print Assumptions C28_domain_subtype.
(** Different class types have different values. *)
Theorem C28_domain_distinct : forall n tb I t u, wf_table n tb -> class_axioms n tb I ->
  wf_texpr n tb 0 t -> wf_texpr n tb 0 u -> t <> u -> denote I t <> denote I u.
Proof. exact (fun n tb I t u W A => distinct n tb W I A t u). Qed.
Print Assumptions C28_domain_distinct.
(** These axioms are consistent for every program. *)
Theorem C28_class_axioms_consistent : forall n tb, wf_table n tb -> exists I, class_axioms n tb I.
Proof. exact (fun n tb W => ex_intro _ _ (model1_ok n tb W)). Qed.
Print Assumptions C28_class_axioms_consistent.
Example C28_domain_subtype_ex : exists I, class_axioms 9 ex I /\
  subtype I (denote I (TApp 7 [TApp 3 []; TApp 4 []])) (denote I (TApp 6 [TApp 3 []])) = true /\
  subtype I (denote I (TApp 7 [TApp 3 []; TApp 4 []])) (denote I (TApp 6 [TApp 4 []])) = false.
Proof.
  exists (model1 9 ex). split; [apply model1_ok, ex_wf|]. split; reflexivity.
Qed.
(** Together with the axioms about unions they are not, for any program. *)
Theorem C28_type_axioms_consistent_refuted : forall n tb, wf_table n tb -> ~ exists I, type_axioms n tb I.
Proof. exact (fun n tb W H => match H with ex_intro _ J A => inconsistent n tb W J A end). Qed.
Print Assumptions C28_type_axioms_consistent_refuted.
(** Leaving out issubtype_exclusion_2 repairs this. *)
Theorem C28_without_exclusion_2_consistent : forall n tb, wf_table n tb ->
  exists I, type_axioms_without_exclusion_2 n tb I.
Proof. exact (fun n tb W => ex_intro _ _ (model2_ok n tb W)). Qed.
Print Assumptions C28_without_exclusion_2_consistent.

(** ** C42: overriding methods are compared with what they override *)
Theorem C42_override_checked_partial : forall n tb x c d, wf_table n tb -> c < n ->
  defines_method tb x c -> inherits tb c d ->
  (forall e, inherits tb c e -> inherits tb e d -> defines_method tb x e) -> checked tb x c d.
Proof. exact (fun n tb x c d W => checked_spec n tb W x c d). Qed.
Print Assumptions C42_override_checked_partial.
Example C42_override_checked_ex : exists tb, wf_table 4 tb /\ override_check tb 10 3 2 = true /\ checked tb 10 3 2.
Proof.
  exists (fun c => match c with 0 => mk None 0 [] [] [1; 2] | 1 => mk (Some (0, [])) 0 [] [] []
                  | 2 => mk (Some (0, [])) 0 [] [10] [3] | 3 => mk (Some (2, [])) 0 [] [10] []
                  | _ => mk (Some (0, [])) 0 [] [] [] end).
  split; [wf_tac|]. split; [reflexivity|]. eapply chk_step; [|constructor]. reflexivity.
Qed.
(** A check always concerns a class and a class it inherits from that has the member. *)
Theorem C42_check_sound : forall tb x c d, checked tb x c d -> inherits tb c d /\ (c = d \/ defines tb x d).
Proof. exact (fun tb => checked_inherits tb). Qed.
Print Assumptions C42_check_sound.
(** A method that redefines one of an indirect superclass, with a class in between that does
    not mention it, is never compared with it, and the program is accepted. *)
Theorem C42_override_checked_refuted : exists n tb x c d, wf_table n tb /\ accepted n tb /\
  defines_method tb x c /\ defines_method tb x d /\ inherits tb c d /\ c <> d /\ ~ checked tb x c d.
Proof.
  exists 5, (fun c => match c with 0 => mk None 0 [] [] [1; 2] | 1 => mk (Some (0, [])) 0 [] [] []
                  | 2 => mk (Some (0, [])) 0 [] [10] [3] | 3 => mk (Some (2, [])) 0 [] [] [4]
                  | 4 => mk (Some (3, [])) 0 [] [10] []
                  | _ => mk (Some (0, [])) 0 [] [] [] end), 10, 4, 2.
  split; [wf_tac|]. split.
  { intros c x C F. unfold defines, defines_method, defines_function in F.
    do 5 (destruct c as [|c]; [cbn in F; destruct F as [F|[F|F]]; repeat (destruct F as [<-|F]; [reflexivity|]); destruct F|]). lia. }
  split; [left; now left|]. split; [left; now left|].
  split. { eapply inh_step; [reflexivity|]. eapply inh_step; [reflexivity|]. constructor. }
  split; [lia|]. intros H. inversion H; subst. unfold override_check, overrides in H0. cbn in H0. discriminate.
Qed.
Print Assumptions C42_override_checked_refuted.

(** ** C43: dispatch on a receiver of union type *)
(** The classes of a union are tried with derived classes first. *)
Theorem C43_toposort : forall n tb set, wf_table n tb -> wf_subs n tb -> (forall c, In c set -> c < n) ->
  exists o, toposort_classes n tb set = Some o /\ Permutation set o /\ derived_first tb o.
Proof. exact (fun n tb set W S => toposort_spec n tb W S set). Qed.
Print Assumptions C43_toposort.
Example C43_toposort_ex : toposort_classes 9 ex [2; 3; 5; 4] = Some [5; 4; 3; 2].
Proof. reflexivity. Qed.

(** If the receiver is an instance of some class of the union, the call goes to the member of
    the most specific class of the union the receiver is an instance of: as an expression ... *)
Theorem C43_dispatch_expr : forall n tb set x r, wf_table n tb -> wf_subs n tb ->
  (forall c, In c set -> c < n) -> r < n -> (exists c, In c set /\ inherits tb r c) ->
  exists t c, union_dispatch n tb set x = Some t /\ nearest tb (fun e => In e set) r c /\
    run_cond (fun g => issubtype tb r g) t = get_func_or_method tb c x.
Proof. exact (fun n tb set x r W S => union_dispatch_spec n tb W S set x r). Qed.
Print Assumptions C43_dispatch_expr.
(** ... and as a statement. *)
Theorem C43_dispatch_stmt : forall n tb set x r, wf_table n tb -> wf_subs n tb ->
  (forall c, In c set -> c < n) -> r < n -> (exists c, In c set /\ inherits tb r c) ->
  exists t c, union_dispatch_stmt n tb set x = Some t /\ nearest tb (fun e => In e set) r c /\
    run_ifs (fun g => issubtype tb r g) t = Some (get_func_or_method tb c x).
Proof. exact (fun n tb set x r W S => union_dispatch_stmt_spec n tb W S set x r). Qed.
Print Assumptions C43_dispatch_stmt.
Example C43_dispatch_ex : exists t, union_dispatch 9 ex [2; 4] 10 = Some t /\
  run_cond (fun g => issubtype ex 4 g) t = Some 4 /\ run_cond (fun g => issubtype ex 5 g) t = Some 2.
Proof. eexists. split; [reflexivity|]. split; reflexivity. Qed.
