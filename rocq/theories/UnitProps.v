(** Property C52: every check is generated and handed to the verifier. *)
From Coq Require Import Bool Arith List NArith Lia.
From Verif Require Import NamesModel ClsModel ClsSpec UnitModel UnitSpec UnitProofs.
Import ListNotations.
Local Open Scope nat_scope.

(** Example programs: the built-in module with object and NoneType, and one module of the
    user with the given functions, a class A (2) and a class B(A) (3).  Identifiers: 0
    __init__, 1 get, 2 put, 3 make, 4 inv, 5 size, 6 main, 10 A, 11 B. *)
Definition mk (s : option (cid * list texpr)) (m st : list nat) : cls :=
  {| c_super := s; c_nvars := 0; c_functions := []; c_methods := m; c_static := st; c_subs := [] |}.
Definition tab (ma sa mb : list nat) : table := fun c =>
  match c with
  | 0 => mk None [] []
  | 2 => mk (Some (0, [])) ma sa
  | 3 => mk (Some (2, [])) mb []
  | _ => mk (Some (0, [])) [] []
  end.
Definition spelling (x : nat) : pystring := if x =? 6 then str_main else [N.of_nat (97 + x)].
Definition build (fs ma sa mb : list nat) (props : list (nat * bool)) (pa pb : list nat) (imported : bool) : prog := {|
  p_modules := [ {| md_global := true; md_classes := [0; 1]; md_functions := []; md_methods := []; md_predicates := [];
                    md_vars := []; md_ops := [] |};
                 {| md_global := false; md_classes := [2; 3]; md_functions := fs; md_methods := []; md_predicates := [];
                    md_vars := []; md_ops := [] |} ];
  p_tb := tab ma sa mb;
  p_preds := fun c => match c with 2 => pa | 3 => pb | _ => [] end;
  p_props := fun c => match c with 2 => props | _ => [] end;
  p_adt := fun _ => false;
  p_classmethod := fun _ => false;
  p_cname := fun c => 8 + c;
  p_src := spelling;
  p_info := fun o _ => {| m_interface := false; m_inline := false; m_declared := false; m_normal := true;
                          m_imported := match o with OClass 2 => imported | _ => false end |};
  p_init := 0;
  p_taken := [];
  p_ignore := false |}.

Lemma build_class fs ma sa mb props pa pb im c : own_class (build fs ma sa mb props pa pb im) c <-> c = 2 \/ c = 3.
Proof.
  split.
  - intros [i [m [Hm [Hg Hc]]]]. unfold module_at in Hm. cbn in Hm. destruct i as [|[|i]]; cbn in Hm.
    + injection Hm as <-. discriminate.
    + injection Hm as <-. cbn in Hc. intuition.
    + destruct i; discriminate.
  - intros H. eexists 1, _. split; [reflexivity|]. split; [reflexivity|]. cbn. intuition.
Qed.
Lemma build_wf fs ma sa mb props pa pb im : wf_prog 4 (build fs ma sa mb props pa pb im).
Proof.
  constructor.
  - constructor; [lia | split; reflexivity | split; reflexivity |].
    intros c H. destruct c as [|[|[|[|c]]]]; [lia| | | |lia]; eexists _, _; split; try reflexivity; split; try lia; split; try reflexivity; constructor.
  - intros c [i [m [Hm Hc]]]. unfold module_at in Hm. cbn in Hm.
    destruct i as [|[|i]]; cbn in Hm; [| |destruct i; discriminate]; injection Hm as <-; cbn in Hc; lia.
  - intros c p [i [m [Hm Hc]]] Hs. unfold module_at in Hm. cbn in Hm.
    destruct i as [|[|i]]; cbn in Hm; [| |destruct i; discriminate]; injection Hm as <-; cbn in Hc;
      repeat (destruct Hc as [<-|Hc]); try destruct Hc; unfold superclass in Hs; cbn in Hs; try discriminate; injection Hs as <-;
      first [eexists 0, _; split; [reflexivity | cbn; tauto] | eexists 1, _; split; [reflexivity | cbn; tauto]].
  - intros c H. discriminate.
Qed.

(** When the whole program is verified, every function, method, static method, property,
    predicate, IO operation, override check, check of an inherited method and frame check
    the user expects is in the program given to the verifier. *)
Theorem C52_complete : forall n P u, wf_prog n P -> must_check P u -> in_program P [] u = true.
Proof. exact (fun n P u W => complete n P W u). Qed.
Print Assumptions C52_complete.
Definition ex1 : prog := build [7] [0; 1; 2] [3] [1; 3] [(5, true)] [4] [4] false.
Example C52_complete_ex : wf_prog 4 ex1 /\
  Forall (must_check ex1) [UFunction (OModule 1) 7; UMethod (OClass 2) 0; UMethod (OClass 2) 3; UMethod (OClass 3) 1;
    UGetter 2 5; USetter 2 5; UOverride 3 1; UOverride 3 3; UInherit 3 2 2; UFamily 2 4; UFrame 2 2 4; UFrame 2 3 4] /\
  in_program ex1 [] (UInherit 3 2 0) = false /\ in_program ex1 [] (UInherit 3 2 1) = false.
Proof.
  split; [apply build_wf|]. split; [|split; vm_compute; reflexivity].
  assert (O2 : own_class ex1 2) by (apply build_class; auto). assert (O3 : own_class ex1 3) by (apply build_class; auto).
  assert (F2 : family_of ex1 4 2 2) by (apply fo_root; intros p Hp; injection Hp as <-; intros []).
  assert (F3 : family_of ex1 4 3 2) by (eapply fo_step; [reflexivity | cbn; auto | exact F2]).
  repeat (apply Forall_cons || apply Forall_nil).
  - eapply mc_function; [reflexivity | reflexivity | cbn; auto | reflexivity].
  - apply mc_class_method; [exact O2 | cbn; auto | split; reflexivity].
  - apply mc_static; [exact O2 | cbn; auto].
  - apply mc_class_method; [exact O3 | cbn; auto | split; reflexivity].
  - eapply mc_getter; [exact O2 | left; reflexivity].
  - eapply mc_setter; [exact O2 | left; reflexivity].
  - eapply mc_override; [exact O3 | reflexivity | left; cbn; auto | right; left; cbn; auto | discriminate | split; reflexivity].
  - eapply mc_override; [exact O3 | reflexivity | left; cbn; auto | right; right; cbn; auto | discriminate | split; reflexivity].
  - apply mc_inherit; try reflexivity; [exact O3 | | discriminate | cbn; auto | discriminate].
    split; [eapply inh_step; [reflexivity | constructor]|]. split; [left; cbn; auto|].
    intros e He [Hd|Hd].
    + inversion He as [|? p ? Hp He']; subst; [cbn in Hd; intuition discriminate|]. injection Hp as <-. exact He'.
    + inversion He as [|? p ? Hp He']; subst; [cbn in Hd; intuition discriminate|]. injection Hp as <-. exact He'.
  - eapply mc_family; [exact O3 | cbn; auto | exact F3].
  - eapply mc_frame; [exact O2 | cbn; auto | exact F2 | reflexivity].
  - eapply mc_frame; [exact O3 | cbn; auto | exact F3 | reflexivity].
Qed.

(** The statements at the top level are verified exactly if nothing else in the program is
    called [main]: the translator asks for the method by that name, even if it had to give it
    another one. *)
Theorem C52_main_exact : forall P, in_program P [] UMain = true <->
  p_ignore P = false /\ ~ In str_main (p_taken P) /\ ~ top_level_name P str_main.
Proof. exact main_exact. Qed.
Print Assumptions C52_main_exact.
Example C52_main_ex : in_program ex1 [] UMain = true.
Proof. vm_compute. reflexivity. Qed.

(** A program with a function called main: its top-level statements are not verified. *)
Definition ex2 : prog := build [6] [] [] [] [] [] [] false.
Theorem C52_main_refuted : ~ (forall n P, wf_prog n P -> p_ignore P = false -> ~ In str_main (p_taken P) ->
  in_program P [] UMain = true).
Proof.
  exact (fun H => eq_ind (in_program ex2 [] UMain) (fun b => if b then False else True) I true
    (H 4 ex2 (build_wf _ _ _ _ _ _ _ _) eq_refl (fun x => x))).
Qed.
Print Assumptions C52_main_refuted.

(** If the verifier accepts the program, then every method body that a call can reach on an
    object of a class of the program is correct for objects of that class, not only for
    objects of the class that contains the method.  Left out: constructors that are inherited
    and methods of imported modules (see below). *)
Theorem C52_dispatch_partial : forall n P ok c d x, wf_prog n P -> accepted_prog P [] ok -> runs_on P c d x ->
  m_imported (p_info P (OClass d) x) = false -> (x <> p_init P \/ d = c) -> ok d x c.
Proof. exact (fun n P ok c d x W => dispatch n P W ok c d x). Qed.
Print Assumptions C52_dispatch_partial.
Lemma runs_in_ex fs ma sa props pa pb im x : In x ma -> runs_on (build fs ma sa [] props pa pb im) 3 2 x.
Proof.
  intros Hx. unfold runs_on, has_body.
  split; [apply build_class; auto|]. split; [apply build_class; auto|].
  split; [|split; [exact Hx|]; split; [split; reflexivity|]; split; reflexivity].
  split; [eapply inh_step; [reflexivity | constructor]|]. split; [left; exact Hx|].
  intros e He Hd. inversion He as [|? p ? Hp He']; subst; [destruct Hd as [[]|[]]|]. injection Hp as <-. exact He'.
Qed.
Example C52_dispatch_ex : wf_prog 4 (build [] [1] [] [] [] [] [] false) /\ runs_on (build [] [1] [] [] [] [] [] false) 3 2 1 /\
  accepted_prog (build [] [1] [] [] [] [] [] false) [] (fun d x c => d = 2 /\ x = 1 /\ (c = 2 \/ c = 3)).
Proof.
  split; [apply build_wf|]. split; [apply runs_in_ex; left; reflexivity|].
  intros u H _. apply in_program_spec in H. destruct H as [H _]. vm_compute in H.
  repeat (destruct H as [<-|H]; [cbn; auto|]). destruct H.
Qed.

(** Without the restriction to other methods than [__init__] the claim fails: an inherited
    constructor is not checked for the inheriting class. *)
Theorem C52_init_refuted : ~ (forall n P ok c d x, wf_prog n P -> accepted_prog P [] ok -> runs_on P c d x ->
  m_imported (p_info P (OClass d) x) = false -> ok d x c).
Proof.
  intros H. specialize (H 4 (build [] [0] [] [] [] [4] [4] false) (fun d x c => x = 0 -> d = c) 3 2 0 (build_wf _ _ _ _ _ _ _ _)).
  discriminate H; [|apply runs_in_ex; left; reflexivity | reflexivity | reflexivity].
  intros u Hu _. apply in_program_spec in Hu. destruct Hu as [Hu _]. vm_compute in Hu.
  repeat (destruct Hu as [<-|Hu]; [cbn; auto|]). destruct Hu.
Qed.
Print Assumptions C52_init_refuted.

(** A method of a class of an imported module is not checked for the classes that inherit it
    in the main module. *)
Theorem C52_imported_refuted : ~ (forall n P ok c d x, wf_prog n P -> accepted_prog P [] ok -> runs_on P c d x ->
  (x <> p_init P \/ d = c) -> ok d x c).
Proof.
  intros H. specialize (H 4 (build [] [1] [] [] [] [4] [4] true) (fun d x c => d = c) 3 2 1 (build_wf _ _ _ _ _ _ _ _)).
  discriminate H; [|apply runs_in_ex; left; reflexivity | left; discriminate].
  intros u Hu _. apply in_program_spec in Hu. destruct Hu as [Hu _]. vm_compute in Hu.
  repeat (destruct Hu as [<-|Hu]; [cbn; auto|]). destruct Hu.
Qed.
Print Assumptions C52_imported_refuted.

(** A selected function, method or predicate of a module is verified; its body is left out
    only if the user declared it so. *)
Theorem C52_select_module_partial : forall P sels i m x, module_at P i m -> asked_for P sels None x ->
  (In x (md_functions m) -> m_interface (p_info P (OModule i) x) = false -> in_program P sels (UFunction (OModule i) x) = true) /\
  (In x (md_methods m) -> has_body P (OModule i) x ->
   in_program P sels (UMethod (OModule i) x) = true /\
   body_skipped P sels (UMethod (OModule i) x) = m_declared (p_info P (OModule i) x)) /\
  (In x (md_predicates m) -> in_program P sels (UPredicate i x) = true).
Proof. exact selected_functions. Qed.
Print Assumptions C52_select_module_partial.
Example C52_select_module_ex : asked_for ex1 [SName 7] None 7 /\ in_program ex1 [SName 7] (UFunction (OModule 1) 7) = true /\
  in_program ex1 [SName 7] (UMethod (OClass 2) 1) = false.
Proof. split; [left; left; reflexivity|]. split; vm_compute; reflexivity. Qed.

(** The same for the functions, methods and static methods of a class, selected by name, by
    [C.m] or with the whole class, with their override checks. *)
Theorem C52_select_class_partial : forall P sels c x, some_class P c -> asked_for P sels (Some c) x ->
  (In x (c_functions (p_tb P c)) -> m_interface (p_info P (OClass c) x) = false -> in_program P sels (UFunction (OClass c) x) = true) /\
  (defines_method (p_tb P) x c -> has_body P (OClass c) x ->
   in_program P sels (UMethod (OClass c) x) = true /\
   body_skipped P sels (UMethod (OClass c) x) = m_declared (p_info P (OClass c) x) /\
   (x <> p_init P -> forall d, superclass (p_tb P) c = Some d -> defines (p_tb P) x d ->
    in_program P sels (UOverride c x) = true)).
Proof. exact selected_members. Qed.
Print Assumptions C52_select_class_partial.
Example C52_select_class_ex : asked_for ex1 [SQual 11 1] (Some 3) 1 /\
  in_program ex1 [SQual 11 1] (UMethod (OClass 3) 1) = true /\ in_program ex1 [SQual 11 1] (UOverride 3 1) = true /\
  in_program ex1 [SQual 11 1] (UMethod (OClass 2) 1) = false.
Proof. split; [right; exists 3; split; [reflexivity | left; left; reflexivity]|]. repeat split; vm_compute; reflexivity. Qed.

(** With a selection, the body of a method that is not selected is not verified. *)
Theorem C52_unselected_skipped : forall P sels o x, sels <> [] -> ~ asked_for P sels (owner_cls o) x ->
  body_skipped P sels (UMethod o x) = true.
Proof. exact unselected_skipped. Qed.
Print Assumptions C52_unselected_skipped.
Example C52_unselected_ex : ~ asked_for ex1 [SQual 11 1] (owner_cls (OClass 2)) 1.
Proof. intros [[H|[]]|[c [E [[H|[]]|[H|[]]]]]]; try discriminate. injection E as <-. discriminate. Qed.

(** Selecting a class does not verify its properties, *)
Theorem C52_select_property_refuted : ~ (forall n P sels c x b, wf_prog n P -> own_class P c -> In (x, b) (p_props P c) ->
  asked_for P sels (Some c) x -> in_program P sels (UGetter c x) = true).
Proof.
  exact (fun H => eq_ind (in_program (build [] [] [] [] [(5, true)] [] [] false) [SName 10] (UGetter 2 5))
    (fun b => if b then False else True) I true
    (H 4 (build [] [] [] [] [(5, true)] [] [] false) [SName 10] 2 5 true (build_wf _ _ _ _ _ _ _ _)
       (proj2 (build_class _ _ _ _ _ _ _ _ 2) (or_introl eq_refl)) (or_introl eq_refl)
       (or_intror (ex_intro _ 2 (conj eq_refl (or_intror (or_introl eq_refl))))))).
Qed.
Print Assumptions C52_select_property_refuted.

(** nor the methods it inherits, for its objects, *)
Theorem C52_select_inherited_refuted : ~ (forall n P sels ok c d x, wf_prog n P -> accepted_prog P sels ok -> runs_on P c d x ->
  m_imported (p_info P (OClass d) x) = false -> x <> p_init P -> asked_for P sels (Some c) x -> In (SName (p_cname P c)) sels -> ok d x c).
Proof.
  intros H. specialize (H 4 (build [] [1] [] [] [] [] [] false) [SName 11] (fun d x c => d = c) 3 2 1 (build_wf _ _ _ _ _ _ _ _)).
  discriminate H; [|apply runs_in_ex; left; reflexivity | reflexivity | discriminate | | left; reflexivity].
  - intros u Hu _. apply in_program_spec in Hu. destruct Hu as [Hu _]. vm_compute in Hu.
    repeat (destruct Hu as [<-|Hu]; [cbn; auto|]). destruct Hu.
  - right. exists 3. split; [reflexivity|]. right. left. reflexivity.
Qed.
Print Assumptions C52_select_inherited_refuted.

(** nor the predicates with which it overrides those of its base. *)
Theorem C52_select_predicate_refuted : ~ (forall n P sels c r x, wf_prog n P -> own_class P c -> In x (p_preds P c) ->
  family_of P x c r -> m_declared (p_info P (OClass r) x) = false -> asked_for P sels (Some c) x ->
  in_program P sels (UFrame r c x) = true).
Proof.
  intros H. specialize (H 4 (build [] [] [] [] [] [4] [4] false) [SName 11] 3 2 4 (build_wf _ _ _ _ _ _ _ _)).
  assert (E : in_program (build [] [] [] [] [] [4] [4] false) [SName 11] (UFrame 2 3 4) = false) by (vm_compute; reflexivity).
  rewrite E in H. discriminate H; [apply build_class; auto | left; reflexivity | | reflexivity |].
  - eapply fo_step; [reflexivity | left; reflexivity|]. apply fo_root. intros p Hp. injection Hp as <-. intros [].
  - right. exists 3. split; [reflexivity|]. right. left. reflexivity.
Qed.
Print Assumptions C52_select_predicate_refuted.
