(** Property C76: code lenses and hovers over names of functions. *)
From Coq Require Import List Arith ZArith Bool.
From Verif Require Import LensModel LensSpec LensProofs.
Import ListNotations.

(** def f (line 1); class A: def f (line 4), def g (line 7); class B: def g (line 12);
    an assignment. *)
Definition nf : name := [102]. Definition ng : name := [103].
Definition nA : name := [65]. Definition nB : name := [66].
Definition ex : list node :=
  [Fun nf 1 [] [Other []]; Cls nA [Fun nf 4 [8] []; Fun ng 7 [5; 6] [Other [Other []]]]; Cls nB [Fun ng 12 [9] []]; Other []].

(** ** There is one lens for every function and method of an accepted file, in their order, on
    the line of the definition and with the qualified name, if definitions are not below other
    statements ... *)
Theorem C76_lenses_partial : forall t, accepts t = true -> forallb plain t = true ->
  exists ms, (forall k x, In (k, x) ms <-> defined_in t k x) /\
    code_lens t = map (fun m => (Z.max (Z.of_nat (fline (snd m)) - 1) 0, qualified (fst m) (snd m))) ms.
Proof. exact lenses. Qed.
Print Assumptions C76_lenses_partial.
Example C76_lenses_ex : accepts ex = true /\ forallb plain ex = true /\
  code_lens ex = [(0%Z, nf); (3%Z, nA ++ dot :: nf); (6%Z, nA ++ dot :: ng); (11%Z, nB ++ dot :: ng)].
Proof. repeat split. Qed.
(** ... a function below an [if] is verified but has no lens. *)
Theorem C76_lenses_refuted : exists t k x, accepts t = true /\ defined_in t k x /\ code_lens t = [] /\
  contract_only [] false false k (fname x) = false.
Proof.
  exists [Other [Fun nf 2 [] []]], None, (Fun nf 2 [] []). split; [reflexivity|]. split; [|split; reflexivity].
  exists (Other [Fun nf 2 [] []]). split; [left; reflexivity|].
  eapply I_other; [reflexivity|left; reflexivity|]. eapply I_fun. reflexivity.
Qed.
Print Assumptions C76_lenses_refuted.

(** ** The command of a lens verifies the body of the function it is attached to, unless this
    is declared to be left out *)
Theorem C76_verifies : forall t l a, accepts t = true -> In (l, a) (code_lens t) ->
  exists k x, defined_in t k x /\ l = Z.max (Z.of_nat (fline x) - 1) 0 /\ a = qualified k x /\
    forall declared, contract_only [a] false declared k (fname x) = declared.
Proof. exact lens_verifies. Qed.
Print Assumptions C76_verifies.
Example C76_verifies_ex : In (6%Z, nA ++ dot :: ng) (code_lens ex) /\
  contract_only [nA ++ dot :: ng] false false (Some nA) ng = false /\ contract_only [nA ++ dot :: ng] false true (Some nA) ng = true.
Proof. split; [right; right; left; reflexivity|]. split; reflexivity. Qed.

(** ** The lens of a method verifies no other function, except for methods with the same name
    in classes with the same name (in other files) ... *)
Theorem C76_only_method : forall c x k y imported declared, identifier c -> identifier (fname x) ->
  (forall c', k = Some c' -> identifier c') -> identifier (fname y) ->
  contract_only [qualified (Some c) x] imported declared k (fname y) = false -> k = Some c /\ fname y = fname x.
Proof. exact only_method. Qed.
Print Assumptions C76_only_method.
Example C76_only_method_ex : identifier nA /\ identifier ng /\ contract_only [nA ++ dot :: ng] false false (Some nB) ng = true.
Proof. split; [|split; [|reflexivity]]; intros [H|[]]; discriminate. Qed.
(** ... that of a function verifies nothing but what has its name, or is a member of a class
    with its name ... *)
Theorem C76_only_function_partial : forall x k y imported declared, identifier (fname x) ->
  contract_only [qualified None x] imported declared k (fname y) = false -> fname y = fname x \/ k = Some (fname x).
Proof. exact only_function. Qed.
Print Assumptions C76_only_function_partial.
Example C76_only_function_ex : contract_only [qualified None (Fun nf 1 [] [])] false false (Some nA) ng = true /\
  contract_only [qualified None (Fun nf 1 [] [])] false false None nf = false.
Proof. split; reflexivity. Qed.
(** ... so it also verifies methods with its name, also in imported files. *)
Theorem C76_only_function_refuted : exists t x k y, accepts t = true /\ defined_in t None x /\ defined_in t k y /\
  k <> None /\ contract_only [qualified None x] false false k (fname y) = false /\
  contract_only [qualified None x] true false k (fname y) = false.
Proof.
  exists ex, (Fun nf 1 [] [Other []]), (Some nA), (Fun nf 4 [8] []). split; [reflexivity|].
  split; [apply members_spec; left; reflexivity|]. split; [apply members_spec; right; left; reflexivity|].
  split; [discriminate|]. split; reflexivity.
Qed.
Print Assumptions C76_only_function_refuted.

(** ** The contract that is shown for a name is the one of a function with this name ... *)
Theorem C76_hover_sound : forall w t a cl, accepts t = true -> contract_hover w t = Some (a, cl) ->
  exists k x, defined_in t k x /\ fname x = w /\ a = qualified k x /\ cl = fclauses x /\ cl <> [].
Proof. exact hover_sound. Qed.
Print Assumptions C76_hover_sound.
(** ... and it is shown if there is only one such function ... *)
Theorem C76_hover_partial : forall w t k x, accepts t = true -> forallb plain t = true ->
  defined_in t k x -> fname x = w -> fclauses x <> [] ->
  (forall k' x', defined_in t k' x' -> fname x' = w -> k' = k /\ x' = x) ->
  contract_hover w t = Some (qualified k x, fclauses x).
Proof. exact hover_unique. Qed.
Print Assumptions C76_hover_partial.
Example C76_hover_ex : contract_hover ng ex = Some (nA ++ dot :: ng, [5; 6]) /\
  defined_in [Cls nB [Fun ng 12 [9] []]] (Some nB) (Fun ng 12 [9] []) /\
  (forall k' x', defined_in [Cls nB [Fun ng 12 [9] []]] k' x' -> fname x' = ng -> k' = Some nB /\ x' = Fun ng 12 [9] []).
Proof.
  split; [reflexivity|]. split; [apply members_spec; left; reflexivity|].
  intros k x H _. apply members_spec in H. destruct H as [H|[]]. injection H as <- <-. split; reflexivity.
Qed.
(** ... but with several, the name in the definition of a method shows the contract of a
    method of another class, and none if the first one has none. *)
Theorem C76_hover_refuted : exists t k x a cl, accepts t = true /\ forallb plain t = true /\ defined_in t k x /\
  contract_hover (fname x) t = Some (a, cl) /\ fclauses x <> [] /\ cl <> fclauses x /\
  exists k' y, defined_in t k' y /\ fclauses y <> [] /\ contract_hover (fname y) t = None.
Proof.
  exists ex, (Some nB), (Fun ng 12 [9] []), (nA ++ dot :: ng), [5; 6]. split; [reflexivity|]. split; [reflexivity|].
  split; [apply members_spec; right; right; right; left; reflexivity|]. split; [reflexivity|]. split; [discriminate|]. split; [discriminate|].
  exists (Some nA), (Fun nf 4 [8] []). split; [apply members_spec; right; left; reflexivity|]. split; [discriminate|reflexivity].
Qed.
Print Assumptions C76_hover_refuted.
