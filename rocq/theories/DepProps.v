(** C45: dependencies of calls at top level. *)
From Coq Require Import List Arith Lia Bool String.
From Verif Require Import ModModel DepModel DepSpec DepProofs.
Import ListNotations.
Local Open Scope string_scope.

(** f and g call each other, g calls m on an object of class C or its subclass Sub. *)
Definition C45_prog : decls := {|
  kind_of := fun d => match d with 0 | 1 => DFun | 3 | 6 => DClass None | 4 | 7 => DMethod | _ => DVar end;
  module_of := fun d => 0;
  name_of := fun d => Single (match d with 0 => "f" | 1 => "g" | 2 => "x" | 3 => "C" | 4 | 7 => "m" | 5 => "y" | 6 => "Sub" | _ => "z" end);
  sites := fun d => match d with
    | 0 => [Call 1 (Single "g") 1; Read 2 (Single "x") 2]
    | 1 => [Invoke 3 (Combined (Single "o") (Single "m")) 4; Call 4 (Single "f") 0]
    | 4 => [Read 5 (Single "y") 5]
    | 7 => [Read 6 (Single "z") 8]
    | _ => []
    end;
  class_of := fun d => 3;
  subclasses := fun d => match d with 3 => [3; 6] | _ => [d] end;
  method_in := fun c m => match c with 3 => Some 4 | 6 => Some 7 | _ => None end |}.
Definition C45_defined (l : list string) (m : nat) (g : gname) : bool :=
  match g with Single x => existsb (String.eqb x) l | _ => false end.
Lemma C45_prog_wf : well_formed C45_prog.
Proof.
  intros d s I. do 9 (destruct d as [|d]; [cbn in I; repeat (destruct I as [<-|I]; [|try (destruct I; fail)]); try (destruct I; fail); cbn;
    first [left; reflexivity|right; eexists; reflexivity|split; discriminate|
           intros sub b; do 7 (destruct sub as [|sub]; [first [discriminate|intros [= <-]; reflexivity]|]); discriminate]|]).
  destruct I.
Qed.
Lemma C45_prog_plain : plain C45_prog.
Proof.
  intros d i r t I. do 9 (destruct d as [|d]; [cbn in I; repeat (destruct I as [I|I]; [try discriminate I; injection I; intros; subst; reflexivity|]); destruct I|]).
  destruct I.
Qed.

(** A use of a function, class or variable at top level passes the check exactly if
    everything that it may read is defined.
    Missing: function bodies that call constructors or static methods. *)
Theorem C45_exact_partial : forall P f D m s b, well_formed P -> plain P -> site_ok P s ->
  (match s with Read _ _ _ => True | Call _ _ t => kind_of P t <> DStatic | Invoke _ _ _ => False end) ->
  top_check P f D m s = Some b -> (b = true <-> all_defined P D m s).
Proof. intros P f D m s b WF PL OK NM H. apply (top_exact P WF PL f D m s b H OK). destruct s; exact NM. Qed.
Print Assumptions C45_exact_partial.

(** Collecting the dependencies terminates for every call graph, recursive or not.
    Missing: recursion below a call of a method on an object. *)
Theorem C45_terminates_partial : forall P below rank ds s, well_formed P -> no_method_recursion P below rank ->
  closed_under P ds -> (forall b, executes P s b -> In b ds) ->
  exists f0, forall f D m, f0 <= f -> top_check P f D m s <> None.
Proof. intros P below rank ds s WF N CL. exact (top_total P WF below rank ds N CL s). Qed.
Print Assumptions C45_terminates_partial.

Example C45_ex : well_formed C45_prog /\ plain C45_prog /\ site_ok C45_prog (Call 9 (Single "f") 0) /\
  no_method_recursion C45_prog (fun d => d = 4 \/ d = 7) (fun d => 0) /\ closed_under C45_prog [0; 1; 4; 7] /\
  top_check C45_prog 6 (C45_defined ["f"; "g"; "x"; "C"; "y"]) 0 (Call 9 (Single "f") 0) = Some true /\
  top_check C45_prog 6 (C45_defined ["f"; "g"; "x"; "C"; "y"; "Sub"]) 0 (Call 9 (Single "f") 0) = Some false /\
  top_check C45_prog 6 (C45_defined ["f"; "g"; "C"; "y"]) 0 (Call 9 (Single "f") 0) = Some false.
Proof.
  split; [exact C45_prog_wf|]. split; [exact C45_prog_plain|]. split; [split; discriminate|].
  assert (M : forall s b, In s (sites C45_prog 1) -> executes C45_prog s b -> b = 0 \/ b = 4 \/ b = 7).
  { intros s b I X. cbn in I. destruct I as [<-|[<-|[]]]; cbn in X.
    - destruct X as (sub & [<-|[<-|[]]] & [= <-]); tauto.
    - injection X as <-. tauto. }
  split; [|split; [|repeat split; reflexivity]].
  - split.
    + intros d i r md b I X. destruct d as [|[|[|[|[|[|[|[|d]]]]]]]]; cbn in I;
        repeat (destruct I as [I|I]; [try discriminate I|]); try (destruct I; fail).
      injection I; intros; subst. cbn in X. destruct X as (sub & [<-|[<-|[]]] & [= <-]); tauto.
    + intros d s b [->| ->] I X; cbn in I; destruct I as [<-|[]]; destruct X.
  - intros d s b [<-|[<-|[<-|[<-|[]]]]] I X.
    + cbn in I. destruct I as [<-|[<-|[]]]; cbn in X; [injection X as <-; cbn; tauto|destruct X].
    + destruct (M s b I X) as [->|[->| ->]]; cbn; tauto.
    + cbn in I. destruct I as [<-|[]]. destruct X.
    + cbn in I. destruct I as [<-|[]]. destruct X.
Qed.

(** Full statement: passing the check implies that everything needed is defined, for all
    programs. False: what a constructor needs is not collected when the constructor is called
    from a function (PythonClass has no add_all_call_deps). f() calls C(), whose constructor
    calls g, and g is not defined yet. *)
Definition C45_ctor : decls := {|
  kind_of := fun d => match d with 1 => DClass (Some 2) | 2 => DMethod | _ => DFun end;
  module_of := fun d => 0;
  name_of := fun d => Single (match d with 0 => "f" | 1 => "C" | 2 => "__init__" | _ => "g" end);
  sites := fun d => match d with 0 => [Call 1 (Single "C") 1] | 2 => [Call 2 (Single "g") 3] | _ => [] end;
  class_of := fun d => 1; subclasses := fun d => [d]; method_in := fun c m => Some 2 |}.
Theorem C45_constructor_refuted : exists P D m s, well_formed P /\ site_ok P s /\
  (forall f, 3 <= f -> top_check P f D m s = Some true) /\ ~ all_defined P D m s.
Proof.
  exists C45_ctor, (C45_defined ["f"; "C"]), 0, (Call 9 (Single "f") 0). split; [|split; [split; discriminate|split]].
  - intros d s I. destruct d as [|[|[|d]]]; cbn in I; try (destruct I; fail); destruct I as [<-|[]]; split; discriminate.
  - intros f L. do 3 (destruct f as [|f]; [lia|]). reflexivity.
  - intros A. assert (E : C45_defined ["f"; "C"] 0 (Single "g") = true); [|discriminate].
    apply A. eapply needs_body; [reflexivity|left; reflexivity|]. eapply needs_body; [reflexivity|left; reflexivity|].
    apply needs_call. discriminate.
Qed.
Print Assumptions C45_constructor_refuted.

(** Method calls at top level are not checked at all (call.py:725). o.m() needs g. *)
Theorem C45_method_refuted : exists P D m s, well_formed P /\ site_ok P s /\
  (forall f, top_check P f D m s = Some true) /\ ~ all_defined P D m s.
Proof.
  exists C45_ctor, (C45_defined ["C"]), 0, (Invoke 9 (Combined (Single "o") (Single "m")) 2). split; [|split; [|split]].
  - intros d s I. destruct d as [|[|[|d]]]; cbn in I; try (destruct I; fail); destruct I as [<-|[]]; split; discriminate.
  - intros sub b [= <-]. reflexivity.
  - reflexivity.
  - intros A. assert (E : C45_defined ["C"] 0 (Single "g") = true); [|discriminate].
    apply A. apply (needs_dispatch C45_ctor _ _ _ _ _ 1 2 (Call 2 (Single "g") 3)); try reflexivity; [left; reflexivity|left; reflexivity|].
    apply needs_call. discriminate.
Qed.
Print Assumptions C45_method_refuted.

(** Collecting does not terminate for a recursive method: f() calls o.m(), which calls
    itself. *)
Definition C45_rec : decls := {|
  kind_of := fun d => match d with 1 => DClass None | 2 => DMethod | _ => DFun end;
  module_of := fun d => 0;
  name_of := fun d => Single (match d with 0 => "f" | 1 => "C" | _ => "m" end);
  sites := fun d => match d with 0 => [Invoke 1 (Combined (Single "o") (Single "m")) 2]
                            | 2 => [Invoke 2 (Combined (Single "self") (Single "m")) 2] | _ => [] end;
  class_of := fun d => 1; subclasses := fun d => [d]; method_in := fun c m => Some 2 |}.
Theorem C45_terminates_refuted : exists P s, well_formed P /\ plain P /\ site_ok P s /\
  forall f D m, top_check P f D m s = None.
Proof.
  exists C45_rec, (Call 9 (Single "f") 0). split; [|split; [|split; [split; discriminate|]]].
  - intros d s I. destruct d as [|[|[|d]]]; cbn in I; try (destruct I; fail); destruct I as [<-|[]]; intros sub b [= <-]; reflexivity.
  - intros d i r t I. destruct d as [|[|[|d]]]; cbn in I; try (destruct I; fail); destruct I as [I|[]]; discriminate.
  - assert (G : forall f p, add_all C45_rec f (call_deps C45_rec 2) [] p = None).
    { induction f as [|f IH]; intros p; [reflexivity|]. rewrite add_all_S. cbn. exact (IH (app p [1])). }
    intros f D m. cbn [top_check kind_of C45_rec]. assert (H : add_all C45_rec f (call_deps C45_rec 0) [] [] = None).
    { destruct f as [|f]; [reflexivity|]. rewrite add_all_S. cbn. exact (G f [1]). }
    rewrite H. reflexivity.
Qed.
Print Assumptions C45_terminates_refuted.

(** The other direction: a function that calls a static method is always rejected, as the
    name C.m is never defined; only C needs to be. *)
Definition C45_static : decls := {|
  kind_of := fun d => match d with 1 => DStatic | _ => DFun end;
  module_of := fun d => 0;
  name_of := fun d => Single (match d with 0 => "f" | _ => "m" end);
  sites := fun d => match d with 0 => [Call 1 (Combined (Single "C") (Single "m")) 1] | _ => [] end;
  class_of := fun d => 1; subclasses := fun d => [d]; method_in := fun c m => None |}.
Theorem C45_static_refuted : exists P D m s, well_formed P /\ site_ok P s /\
  (forall f, 3 <= f -> top_check P f D m s = Some false) /\ all_defined P D m s.
Proof.
  exists C45_static, (C45_defined ["f"; "C"; "m"]), 0, (Call 9 (Single "f") 0). split; [|split; [split; discriminate|split]].
  - intros d s I. destruct d as [|d]; cbn in I; try (destruct I; fail); destruct I as [<-|[]]; split; discriminate.
  - intros f L. do 3 (destruct f as [|f]; [lia|]). reflexivity.
  - intros m g N. inversion N as [| | |? ? ? ? b s k C I N'|]; subst; try reflexivity.
    cbn in C. injection C as <-. cbn in I. destruct I as [<-|[]].
    inversion N' as [|? ? ? ? NS| |? ? ? ? b s k C' I'|]; subst; try reflexivity.
    + exfalso. apply NS. reflexivity.
    + cbn in C'. injection C' as <-. destruct I'.
Qed.
Print Assumptions C45_static_refuted.
