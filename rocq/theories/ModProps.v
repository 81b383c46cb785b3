(** C31: execution of modules. *)
From Coq Require Import List Arith Lia Bool String.
From Verif Require Import ModModel ModSpec ModProofs.
Import ListNotations.
Local Open Scope string_scope.

(** A program with an import cycle: main imports a and b, a imports b, b imports a and
    uses nothing of it at load time. *)
Definition C31_prog : program := {|
  body := fun m => match m with
    | 0 => [TFrom "a" [("x", Some "z")]; TStmt [Single "z"] 10 [] ["main_f"]; TImport "b" "b";
            TStmt [Combined (Single "b") (Single "y")] 11 [] []; TStar "a"; TStmt [Single "x"] 12 [] []]
    | 1 => [TStmt [] 20 [] ["w"]; TImport "b" "b"; TStmt [Combined (Single "b") (Single "y")] 21 ["meth"] ["x"]]
    | 2 => [TFrom "a" [("w", None)]; TStmt [Single "w"] 30 [] ["y"]]
    | _ => []
    end;
  modnum := fun s => if String.eqb s "a" then 1 else if String.eqb s "b" then 2 else 0;
  mod_name := fun m => match m with 1 => "a" | 2 => "b" | _ => "__main__" end;
  mod_file := fun m => match m with 1 => "a.py" | 2 => "b.py" | _ => "main.py" end |}.
Definition C31_role (x : string) : role :=
  if String.eqb x "b" then RModule 2 else if String.eqb x "meth" then RMethod else RPlain.

Ltac C31_cases := repeat match goal with
  | H : _ \/ _ |- _ => destruct H
  | H : False |- _ => destruct H
  | H : exists _, _ |- _ => destruct H
  | H : _ = TFrom _ _ |- _ => first [discriminate H|injection H; intros; subst; clear H]
  | H : _ = TStar _ |- _ => first [discriminate H|injection H; intros; subst; clear H]
  | H : (_, _) = (_, _) |- _ => injection H as <- <-
  end.
Ltac C31_exact :=
  intros [|[|[|m]]] c s I E; cbn in I; (destruct E as [->|[? ->]]; C31_cases; (split; [reflexivity|]);
    intros c' s' J E' _; cbn in J; destruct E' as [->|[? ->]]; C31_cases; reflexivity).

Lemma C31_prog_exact : exact_imports C31_prog.
Proof.
  C31_exact.
Qed.
Lemma C31_prog_roles : one_role C31_prog C31_role.
Proof.
  intros m t I. destruct m as [|[|[|m]]]; cbn in I; [..|destruct I];
    repeat (destruct I as [<-|I]; [|try (destruct I; fail)]); cbn; repeat split; try constructor; repeat constructor;
    cbn in *; try (eexists; reflexivity); intros;
    repeat match goal with H : _ \/ _ |- _ => destruct H | H : False |- _ => destruct H | H : (_, _) = (_, _) |- _ => injection H as <- <- end;
    subst; repeat split; reflexivity.
Qed.
Lemma C31_prog_distinct : distinct_effects C31_prog.
Proof.
  split.
  - intros m. destruct m as [|[|[|m]]]; cbn; repeat constructor; cbn; intuition discriminate.
  - intros m m' e I J. destruct m as [|[|[|m]]], m' as [|[|[|m']]]; cbn in I, J; try (destruct I; fail); try (destruct J; fail);
      try reflexivity; exfalso; intuition (subst; discriminate).
Qed.
Lemma C31_prog_closed : closed C31_prog [0; 1; 2].
Proof.
  intros m t m' M I E. destruct M as [<-|[<-|[<-|[]]]]; cbn in I;
    repeat (destruct I as [<-|I]; [cbn in E; try discriminate; injection E as <-; cbn; tauto|]); destruct I.
Qed.

(** Translating a program with finitely many modules terminates, whatever the import
    graph is. *)
Theorem C31_terminates : forall P ms main, exact_imports P -> closed P ms -> In main ms ->
  exists f0, forall f, f0 <= f -> run_main P f main <> None.
Proof. intros P ms main X C M. exact (run_main_total P X ms main C M). Qed.
Print Assumptions C31_terminates.

(** No statement of a module is executed twice. *)
Theorem C31_once : forall P f main st, distinct_effects P -> run_main P f main = Some st -> NoDup (trace st).
Proof. intros P f main st D. exact (main_once P D f main st). Qed.
Print Assumptions C31_once.

(** Statements are executed in Python's order.
    Missing: from-imports where another imported file has the module's name as a prefix. *)
Theorem C31_order_partial : forall P f main st, exact_imports P -> run_main P f main = Some st ->
  python_order P main (trace st).
Proof. intros P f main st X. exact (main_order P X f main st). Qed.
Print Assumptions C31_order_partial.

(** When the generated program verifies, Python executes the modules without using a name
    before its definition.
    Missing: from-imports as above, names with several roles, and names that begin with an
    underscore. *)
Theorem C31_sound_partial : forall P r f main st, exact_imports P -> one_role P r ->
  run_main P f main = Some st -> failed st = false ->
  exists ps, pyrun P (py_initial main) main (body P main) ps /\ ptrace ps = trace st.
Proof. intros P r f main st X G. exact (main_sound P X r G f main st). Qed.
Print Assumptions C31_sound_partial.

(** When Python executes the modules without such an error, the generated program
    verifies.
    Missing: as above, and uses of attributes of modules. *)
Theorem C31_complete_partial : forall P r f main st ps, exact_imports P -> one_role P r -> no_attributes P ->
  run_main P f main = Some st -> pyrun P (py_initial main) main (body P main) ps ->
  failed st = false /\ trace st = ptrace ps.
Proof. intros P r f main st ps X G NA. exact (main_complete P X r G NA f main st ps). Qed.
Print Assumptions C31_complete_partial.

Example C31_ex : exists st, run_main C31_prog 4 0 = Some st /\ failed st = false /\ trace st = [20; 30; 21; 10; 11; 12] /\
  exact_imports C31_prog /\ one_role C31_prog C31_role /\ distinct_effects C31_prog /\ closed C31_prog [0; 1; 2].
Proof.
  eexists. split; [reflexivity|]. split; [reflexivity|]. split; [reflexivity|].
  split; [exact C31_prog_exact|]. split; [exact C31_prog_roles|]. split; [exact C31_prog_distinct|exact C31_prog_closed].
Qed.

(** Without attributes, and a wrong order is rejected: main uses x before importing it. *)
Definition C31_mod (b0 b1 b2 : list tstmt) : program := {|
  body := fun m => match m with 0 => b0 | 1 => b1 | 2 => b2 | _ => [] end;
  modnum := fun s => if String.eqb s "a" then 1 else if String.eqb s "ab" then 2 else 0;
  mod_name := fun m => match m with 1 => "a" | 2 => "ab" | _ => "__main__" end;
  mod_file := fun m => match m with 1 => "a.py" | 2 => "ab.py" | _ => "main.py" end |}.
Definition C31_b1 := [TStmt [] 20 [] ["x"]].
Example C31_ex_complete : exists ps st,
  pyrun (C31_mod [TFrom "a" [("x", None)]; TStmt [Single "x"] 10 [] []] C31_b1 []) (py_initial 0) 0
        [TFrom "a" [("x", None)]; TStmt [Single "x"] 10 [] []] ps /\ ptrace ps = [20; 10] /\
  run_main (C31_mod [TStmt [Single "x"] 10 [] []; TFrom "a" [("x", None)]] C31_b1 []) 3 0 = Some st /\ failed st = true.
Proof.
  eexists. eexists. split; [|split; [|split; [reflexivity|reflexivity]]].
  - eapply p_from with (st1 := bind_name (effect (start (py_initial 0) 1) 20) 1 "x" BVal).
    + apply l_first; [cbn; intros [H|[]]; discriminate|]. cbn. apply p_stmt; [constructor|]. apply p_nil.
    + eapply n_name; [reflexivity|apply n_nil].
    + apply p_stmt; [|apply p_nil]. constructor; [|constructor]. cbn. eexists. reflexivity.
  - reflexivity.
Qed.

Ltac C31_inv H := inversion H; subst; clear H.

(** Full statement: the order is Python's, and accepted programs do not use undefined
    names. False: the module of a from-import is the first one imported from whose file name
    begins with the given name. Here the second import executes and checks module ab, whose x
    exists; module a is not executed at all, and it has no x. *)
Definition C31_lookup_main := [TFrom "ab" [("x", None)]; TFrom "a" [("x", Some "z")]; TStmt [Single "z"] 10 [] []].
Theorem C31_lookup_refuted : exists P main st, (forall f, 3 <= f -> run_main P f main = Some st) /\
  failed st = false /\ ~ python_order P main (trace st) /\
  ~ exists ps, pyrun P (py_initial main) main (body P main) ps.
Proof.
  exists (C31_mod C31_lookup_main [TStmt [] 20 [] []] [TStmt [] 30 [] ["x"]]), 0. eexists. split.
  { intros f L. do 3 (destruct f as [|f]; [lia|]). reflexivity. }
  split; [reflexivity|]. split.
  - intros [l O]. set (t := trace _) in O. assert (E : t = [30; 20; 10]).
    { clearbody t. cbn in O.
      repeat match goal with
        | H : imported _ _ = Some _ |- _ => cbn in H; first [discriminate H|injection H as <-]
        | H : In _ _ |- _ => cbn in H; exfalso; intuition discriminate
        | H : order _ _ _ _ _ _ _ |- _ => cbn in H; C31_inv H
        end; reflexivity. }
    discriminate.
  - intros [ps H]. cbn in H.
    repeat match goal with
      | H : pyrun _ _ _ _ _ |- _ => C31_inv H
      | H : pyload _ _ _ _ |- _ => C31_inv H
      | H : pynames _ _ _ _ _ |- _ => C31_inv H
      end; cbn in *; try discriminate; intuition discriminate.
Qed.
Print Assumptions C31_lookup_refuted.

(** False also with the right modules: the methods of a class are entered as names of the
    module. Here run() is called before its definition, after a class with a method run. *)
Theorem C31_method_refuted : exists P main st, exact_imports P /\ (forall f, 2 <= f -> run_main P f main = Some st) /\
  failed st = false /\ ~ exists ps, pyrun P (py_initial main) main (body P main) ps.
Proof.
  exists (C31_mod [TStmt [] 1 ["run"] ["C"]; TStmt [Single "run"] 2 [] []; TStmt [] 3 [] ["run"]] [] []), 0.
  eexists. split.
  { C31_exact. }
  split. { intros f L. do 2 (destruct f as [|f]; [lia|]). reflexivity. }
  split; [reflexivity|]. intros [ps H]. cbn in H. C31_inv H.
  match goal with H : pyrun _ _ _ _ _ |- _ => C31_inv H end.
  match goal with H : Forall _ [_] |- _ => C31_inv H end. cbn in *.
  match goal with H : exists _, _ |- _ => destruct H end. discriminate.
Qed.
Print Assumptions C31_method_refuted.

(** A star import also brings the names that begin with an underscore. *)
Theorem C31_star_refuted : exists P main st, exact_imports P /\ (forall f, 3 <= f -> run_main P f main = Some st) /\
  failed st = false /\ ~ exists ps, pyrun P (py_initial main) main (body P main) ps.
Proof.
  exists (C31_mod [TStar "a"; TStmt [Single "_x"] 2 [] []; TStmt [] 3 [] ["_x"]] [TStmt [] 1 [] ["_x"]] []), 0.
  eexists. split.
  { C31_exact. }
  split. { intros f L. do 3 (destruct f as [|f]; [lia|]). reflexivity. }
  split; [reflexivity|]. intros [ps H]. cbn in H.
  repeat match goal with
    | H : pyrun _ _ _ _ _ |- _ => C31_inv H
    | H : pyload _ _ _ _ |- _ => C31_inv H
    | H : Forall _ [_] |- _ => C31_inv H
    end; cbn in *; try match goal with H : exists _, _ |- _ => destruct H end; try discriminate; intuition discriminate.
Qed.
Print Assumptions C31_star_refuted.

(** The other direction is false for attributes: names that a module gets after it was
    imported are not visible under the importing name. Module ab imports a while a is being
    executed, later main reads ab.a.x. *)
Theorem C31_attribute_refuted : exists P r main st ps, exact_imports P /\ one_role P r /\
  (forall f, 4 <= f -> run_main P f main = Some st) /\
  failed st = true /\ pyrun P (py_initial main) main (body P main) ps.
Proof.
  set (b0 := [TImport "a" "a"; TImport "ab" "ab"; TStmt [Combined (Single "ab") (Combined (Single "a") (Single "x"))] 1 [] []]).
  set (b1 := [TImport "ab" "ab"; TStmt [] 2 [] ["x"]]). set (b2 := [TImport "a" "a"; TStmt [] 3 [] []]).
  exists (C31_mod b0 b1 b2), (fun s => if String.eqb s "a" then RModule 1 else if String.eqb s "ab" then RModule 2 else RPlain), 0.
  eexists. eexists. split.
  { C31_exact. }
  split.
  { intros m t I. destruct m as [|[|[|m]]]; cbn in I; [..|destruct I];
      repeat (destruct I as [<-|I]; [|try (destruct I; fail)]); cbn; repeat split; try constructor; repeat constructor; cbn in *;
      try (eexists; reflexivity); intros; repeat match goal with H : _ \/ _ |- _ => destruct H | H : False |- _ => destruct H end;
      subst; try reflexivity. }
  split. { intros f L. do 4 (destruct f as [|f]; [lia|]). reflexivity. }
  split; [reflexivity|].
  cbn [C31_mod body]. eapply p_import.
  { apply l_first; [cbn; intuition discriminate|]. cbn. eapply p_import.
    { apply l_first; [cbn; intuition discriminate|]. cbn. eapply p_import; [apply l_again; cbn; tauto|].
      apply p_stmt; [constructor|apply p_nil]. }
    apply p_stmt; [constructor|apply p_nil]. }
  eapply p_import; [apply l_again; cbn; tauto|]. apply p_stmt; [|apply p_nil].
  constructor; [|constructor]. exists 2. split; [reflexivity|]. exists 1. split; [reflexivity|]. exists BVal. reflexivity.
Qed.
Print Assumptions C31_attribute_refuted.
