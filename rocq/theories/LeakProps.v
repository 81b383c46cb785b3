(* C30 (obligations cannot be leaked) and the part of C29 about handing obligations on. *)

From Coq Require Import List Bool Arith ZArith Lia.
From Verif Require Import TermModel LeakModel LeakSpec LeakProofs.
Import ListNotations.

(* No obligation is lost: in every run in which all generated checks succeed, every
   obligation ever brought into being is still held by some activation or was fulfilled. *)
Theorem C30_none_lost : forall k evs s0 s t, run k evs s0 s -> start s0 ->
  total (brings t) evs <= all_held s t + total (fulfils t) evs.
Proof. intros k evs s0 s t R S. exact (proj1 (run_count k evs s0 s t R S)). Qed.
Print Assumptions C30_none_lost.

(* For obligations to release a lock the account is exact. *)
Theorem C30_release_exact : forall evs s0 s t, run Release evs s0 s -> start s0 ->
  all_held s t + total (fulfils t) evs = total (brings t) evs.
Proof.
  intros evs s0 s t R S.
  exact (proj2 (proj2 (proj2 (run_count Release evs s0 s t R S))) eq_refl).
Qed.
Print Assumptions C30_release_exact.

(* Nothing comes from nowhere: obligations and credits together never exceed what was
   brought into being. *)
Theorem C30_none_invented : forall k evs s0 s t, run k evs s0 s -> start s0 ->
  all_held s t + all_credit s t + total (fulfils t) evs <=
  total (brings t) evs + total (brings_credit t) evs.
Proof. intros k evs s0 s t R S. exact (proj1 (proj2 (run_count k evs s0 s t R S))). Qed.
Print Assumptions C30_none_invented.

(* When the first activation ends and passes its own leak check, everything is fulfilled. *)
Theorem C30_all_fulfilled : forall k evs s0 f b t, run k evs s0 [(f, b)] -> start s0 ->
  no_leak (f_perms f) -> total (brings t) evs <= total (fulfils t) evs.
Proof. exact all_fulfilled. Qed.
Print Assumptions C30_all_fulfilled.

(* While a call or a loop that has not promised to terminate runs, the activations that wait
   for it hold no obligations. *)
Theorem C30_waiting : forall k evs s0 s, run k evs s0 s -> start s0 ->
  forall top rest, s = top :: rest ->
  forall f promise, In (f, promise) rest -> promise = true \/ no_leak (f_perms f).
Proof. exact run_waiting. Qed.
Print Assumptions C30_waiting.

(* A contract takes exactly the obligations it mentions, for each target, and leaves the
   rest; with credits, a credit may stand in for an obligation. *)
Theorem C30_exhale_exact : forall k map l p q t, exhale_all k map l p = Some q ->
  held p t + credit p t = held q t + credit q t + mentions t l + mentions_credit t l /\
  held q t <= held p t /\ credit q t <= credit p t /\
  (k = Release -> held p t = held q t + mentions t l).
Proof.
  intros k map l p q t E. destruct (exhale_all_count k map l p q t E) as (H1 & _ & H3 & H4 & _ & _ & H7).
  auto.
Qed.
Print Assumptions C30_exhale_exact.

Theorem C30_inhale_exact : forall l p t,
  held (inhale_all l p) t = held p t + mentions t l /\
  credit (inhale_all l p) t = credit p t + mentions_credit t l.
Proof.
  intros l p t. destruct (inhale_all_count l p t) as (H1 & _ & H3). auto.
Qed.
Print Assumptions C30_inhale_exact.

(* Exhaling fails only if something is missing: with enough unbounded obligations and
   credits of every target, every contract can be exhaled. *)
Theorem C30_exhale_possible : forall k map l p,
  (forall t, mentions t l <= unbounded p t /\ mentions_credit t l <= credit p t) ->
  exists q, exhale_all k map l p = Some q.
Proof. exact exhale_possible. Qed.
Print Assumptions C30_exhale_possible.

(* Turning unbounded obligations into bounded ones keeps their number; at the start of a
   method body or loop iteration no unbounded obligation is left. *)
Theorem C30_bound_keeps : forall l p t,
  held (bound_all l p) t = held p t /\ credit (bound_all l p) t = credit p t.
Proof. intros l p t. destruct (bound_all_count l p t) as (H1 & H2 & _). auto. Qed.
Print Assumptions C30_bound_keeps.

Theorem C30_start_bounded : forall pre f t,
  unbounded (f_perms (method_frame pre)) t = 0 /\
  unbounded (f_perms (iteration_frame f pre)) t = 0 /\
  bounded (f_perms (method_frame pre)) t = mentions t pre /\
  bounded (f_perms (iteration_frame f pre)) t = mentions t pre.
Proof.
  intros pre f t. destruct (new_perms_count pre t) as (H1 & _ & H3).
  cbn [method_frame iteration_frame f_perms]. unfold held in H1. lia.
Qed.
Print Assumptions C30_start_bounded.

(* C29, handing on without a measure: a fresh obligation can be handed on as a fresh one at
   most once; altogether no more often than fresh obligations and credits came into being. *)
Theorem C29_fresh_once : forall k evs s0 s t, run k evs s0 s -> start s0 ->
  all_unbounded s t + all_credit s t + total (hands_fresh t) evs <=
  total (brings_fresh t) evs + total (brings_credit t) evs.
Proof. intros k evs s0 s t R S. exact (proj1 (proj2 (proj2 (run_count k evs s0 s t R S)))). Qed.
Print Assumptions C29_fresh_once.

(* C29, handing on with a measure: no infinite chain of calls hands the same bounded
   obligation on ... *)
Theorem C29_no_call_chain : forall k t,
  ~ exists f : nat -> frame, forall i, hands_on k t (f i) (f (S i)).
Proof. exact no_call_chain. Qed.
Print Assumptions C29_no_call_chain.

(* ... and no infinite sequence of loop iterations does. *)
Theorem C29_no_iteration_chain : forall k t,
  ~ exists f : nat -> frame, forall i, iterates_on k t (f i) (f (S i)).
Proof. exact no_iteration_chain. Qed.
Print Assumptions C29_no_iteration_chain.

(* A run: acquire lock 5, call a method that takes the obligation with measure 2 and
   releases the lock in the first of two iterations of a loop; at the end nothing is left. *)
Definition C30_events : list event :=
  [ETrusted [] [Fresh 5] true; ECall [Measured 5 2] true; ELoop [Measured 5 1] true;
   ETrusted [Measured 5 1] [] true; EIterate []; EExit []; EReturn []].

Definition C30_start : stack :=
  [({| f_perms := no_perms; f_map := []; f_loop := None |}, true)].

Lemma run_cons k ev evs s s1 s2 : step k ev s s1 -> run k evs s1 s2 -> run k (ev :: evs) s s2.
Proof.
  intros St R. revert ev s St. induction R as [s1|evs e s1 s2 s3 R IH St']; intros ev s St.
  - apply (run_snoc k [] ev s s s1); [constructor|exact St].
  - rewrite app_comm_cons. eapply run_snoc; [apply IH, St|exact St'].
Qed.

Example C30_run : exists s, run Release C30_events C30_start s /\ start C30_start /\
  length s = 1 /\ total (brings 5) C30_events = 1 /\ total (fulfils 5) C30_events = 1 /\
  all_held s 5 = 0.
Proof.
  assert (forall t, (if Z.eqb t 5 then 0 else 0) = 0) as Z0 by (intro t; destruct (Z.eqb t 5); auto).
  eexists. split; [|split; [|split; [|split; [|split]]]].
  - unfold C30_events, C30_start.
    eapply run_cons; [eapply st_trusted; [reflexivity|reflexivity|left; reflexivity]|].
    eapply run_cons; [eapply st_call; [reflexivity|reflexivity|left; reflexivity]|].
    eapply run_cons; [eapply st_loop; [reflexivity|reflexivity|left; reflexivity]|].
    eapply run_cons; [eapply st_trusted; [reflexivity|reflexivity|left; reflexivity]|].
    eapply run_cons; [eapply st_iterate; [reflexivity|reflexivity|reflexivity|]|].
    { intro t. cbn. unfold update. cbn. destruct (Z.eqb t 5); auto. }
    eapply run_cons; [eapply st_exit; [reflexivity|reflexivity|]|].
    { intro t. cbn. auto. }
    eapply run_cons; [eapply st_return; [reflexivity|reflexivity|]|constructor].
    intro t. cbn. unfold update. cbn. destruct (Z.eqb t 5); auto.
  - exists [], true. reflexivity.
  - reflexivity.
  - reflexivity.
  - reflexivity.
  - reflexivity.
Qed.

(* A chain that hands an obligation on, measure 3, 2, 1; it cannot go on. *)
Example C29_chain : hands_on Release 5 (method_frame [Measured 5 3]) (method_frame [Measured 5 2]) /\
  hands_on Release 5 (method_frame [Measured 5 2]) (method_frame [Measured 5 1]) /\
  forall g m, ~ (hands_on Release 5 (method_frame [Measured 5 1]) g /\ g = method_frame [Measured 5 m]).
Proof.
  split; [|split].
  - exists [Measured 5 2]. eexists. split; [reflexivity|]. split; [reflexivity|]. split; [|reflexivity].
    cbn. lia.
  - exists [Measured 5 1]. eexists. split; [reflexivity|]. split; [reflexivity|]. split; [|reflexivity].
    cbn. lia.
  - intros g m [(pre & p & Pos & E & L & G) ->].
    destruct (exhale_all_bounded _ _ _ _ _ 5%Z E) as [_ H]. destruct (H L) as (m' & M & C).
    pose proof (positive_in _ _ _ Pos M). cbn in C. rewrite andb_true_r in C.
    apply Z.ltb_lt in C. lia.
Qed.
