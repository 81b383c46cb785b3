(* C36: the conditions collected for the obligations of a contract. *)

From Coq Require Import List Bool Arith.
From Verif Require Import GuardModel GuardSpec GuardProofs.
Import ListNotations.

(* For every contract the traversal leaves the visitor ready for the next one and records,
   for each obligation and each WaitLevel of the contract and nothing else, exactly the
   conditions on the way to it; each once, in source order. *)
Theorem C36_exact : forall e v, v_guard v = None ->
  exists found wfound,
    traverse e v = Some {| v_guard := None;
                           v_instances := v_instances v ++ found;
                           v_waits := v_waits v ++ wfound |} /\
    (forall p k g, In (p, k, g) found <->
       exists y g1 ex, at_path e p y g1 /\ is_obligation y k ex /\ g = g1 ++ ex) /\
    (forall p g, In (p, g) wfound <-> at_path e p CWait g) /\
    in_source_order (map (fun x => fst (fst x)) found) /\
    in_source_order (map fst wfound).
Proof. exact traverse_exact. Qed.
Print Assumptions C36_exact.

(* In a contract the translator takes and that has no quantified obligation, an obligation's
   collected guard holds exactly if assuming the contract takes on that obligation, and every
   obligation that can be taken on is collected.  (For TerminatesSif, which carries a
   condition of its own, this is claimed in the information flow mode only; see C46.) *)
Theorem C36_taken : forall sif I e, unquantified e -> legal true e = true ->
  exists v, traverse e fresh_visitor = Some v /\
    (forall p k g, In (p, k, g) (v_instances v) -> sif = true \/ ~ sif_site e p ->
       (guard_holds I g = true <-> taken sif I e p k)) /\
    (forall p k, taken sif I e p k -> exists g, In (p, k, g) (v_instances v)).
Proof. exact guards_mean_taken. Qed.
Print Assumptions C36_taken.

(* Implies(c0, (MustTerminate(..) if c1 else Implies(c2, MustRelease(..))) and c3) *)
Definition C36_contract : cexp :=
  CImplies (CNode 0 [])
    (CAnd [CIf (CNode 1 []) (CObl MustTerminateK [CNode 9 []])
             (CImplies (CNode 2 []) (CObl MustReleaseK [CNode 8 []]));
           CNode 3 []]).

Example C36_contract_ok :
  unquantified C36_contract /\ legal true C36_contract = true /\
  traverse C36_contract fresh_visitor =
    Some {| v_guard := None;
            v_instances :=
              [([1; 0; 1], MustTerminateK, [CNode 0 []; CNode 1 []]);
               ([1; 0; 2; 1], MustReleaseK, [CNode 0 []; CNot (CNode 1 []); CNode 2 []])];
            v_waits := [] |}.
Proof. split; [|split]; [cbn; tauto|reflexivity|reflexivity]. Qed.

(* C46: a method or loop counts as promising to terminate exactly if it takes on the
   obligation to terminate. *)
Theorem C46_promise_partial : forall sif I e, unquantified e -> legal true e = true ->
  (sif = true \/ forall p, ~ sif_site e p) ->
  exists v, traverse e fresh_visitor = Some v /\
    (promise I (v_instances v) = true <-> exists p, taken sif I e p MustTerminateK).
Proof. exact promise_exact. Qed.
Print Assumptions C46_promise_partial.

Example C46_no_sif : forall p, ~ sif_site C36_contract p.
Proof.
  intros p (c & m & g & A). unfold C36_contract in A.
  inversion A as [| | | |a b p1 y1 g1 A1| | | |]; subst.
  inversion A1 as [| |kids i x p2 y2 g2 N A2| | | | | |]; subst.
  destruct i as [|[|i]]; simpl in N; [| |destruct i; discriminate].
  - injection N as <-. inversion A2 as [| | | | |t b o p3 y3 g3 A3|t b o p3 y3 g3 A3| |]; subst.
    + inversion A3.
    + inversion A3 as [| | | |a b p4 y4 g4 A4| | | |]; subst. inversion A4.
  - injection N as <-. inversion A2 as [|op kids i x p3 y3 g3 N A3| | | | | | |]; subst.
    destruct i; discriminate.
Qed.

(* Assuming Forall([], lambda x: MustTerminate(1)) takes on nothing, but the method counts
   as promising to terminate: its body is free to run forever. *)
Theorem C46_forall_refuted : exists I e v, legal true e = true /\
  traverse e fresh_visitor = Some v /\ promise I (v_instances v) = true /\
  forall sif p k, ~ taken sif I e p k.
Proof.
  exists (fun _ _ => false), (CForall (CNode 0 []) (CObl MustTerminateK [CNode 1 []])).
  eexists. split; [reflexivity|]. split; [reflexivity|]. split; [reflexivity|].
  intros sif p k T. inversion T; subst. discriminate.
Qed.
Print Assumptions C46_forall_refuted.

(* Outside the information flow mode TerminatesSif(c, m) takes on the obligation although c,
   which is in its collected guard, is false. *)
Theorem C46_sif_refuted : exists I e v p g, legal true e = true /\ unquantified e /\
  traverse e fresh_visitor = Some v /\ In (p, MustTerminateK, g) (v_instances v) /\
  guard_holds I g = false /\ taken false I e p MustTerminateK.
Proof.
  exists (fun _ _ => false), (CTermSif (CNode 0 []) (CNode 1 [])).
  eexists. exists [], [CNode 0 []].
  split; [reflexivity|]. split; [exact Logic.I|]. split; [reflexivity|].
  split; [left; reflexivity|]. split; [reflexivity|]. constructor. discriminate.
Qed.
Print Assumptions C46_sif_refuted.
