(** C25: concurrent requests to the verification service. *)
From Coq Require Import Bool Arith NArith List String Ascii.
From Verif Require Import ErrModel ErrSpec SvcModel SvcSpec SvcProofs.
Import ListNotations.
Open Scope list_scope.

(** A concrete service: three calls to verify, the rest of the threads are
    cancellations that never run. Translation registers one position and the program
    remembers the bit width; jobs fail with one error at that position. *)
Definition tx (s : string) : str := list_ascii_of_string s.
Definition nd1 (i : nat) : pynode := {| n_id := i; n_pos := Some (3%N, 4%N, None) |}.
Definition ps1 (i : nat) : vpos := IdPos (tx "a.py") 3%N 4%N None i.
Definition err1 (i : nat) : verror :=
  {| ve_timeout := false; ve_id := tx "assert.failed"; ve_pos := ps1 i; ve_node := VAtom (ps1 i);
     ve_reason := Some {| vr_id := tx "assertion.false"; vr_node := VAtom (ps1 i) |} |}.
Definition demo_env : env := {|
  e_obl0 := None;
  e_tr := fun o q => ([{| g_id := q_id q; g_file := tx "a.py"; g_node := nd1 (q_id q); g_vias := [];
                          g_reason := None; g_rules := None |}], TProg (q_id q), Some true);
  e_verdict := fun p _ _ => VFailed [err1 p];
  e_ce := fun sf e => if sf then Some 1 else None |}.
Definition cfg_silicon : config :=
  {| c_backend := Silicon; c_sif := false; c_bv := 8; c_float := 0; c_dbc := false; c_tools := 0; c_mypy := 0; c_server := true |}.
Definition rq (i : nat) (t : option nat) : request := {| q_id := i; q_arp := false; q_token := t |}.
Definition service (ts : list thread) (other : thread) : state := {|
  lock := None; cells := fun _ => {| items := []; crules := [] |}; ncell := 1; em := 0; obl := None; cfg := cfg_silicon;
  res := load cfg_silicon; jobs := fun _ => None;
  srv := fun _ => {| j_owner := 0; j_prog := 0; j_carbon := false; j_args := build_args cfg_silicon; j_status := Stopped |};
  njob := 0; thr := fun i => nth i ts other |}.
Definition runs (i n : nat) : list event := repeat (Run i) n.
(** The state after the schedule [evs]. *)
Definition final (E : env) (evs : list event) (s : state) : state :=
  match exec E evs s with Some s' => s' | None => s end.
Definition possible (E : env) (evs : list event) (s : state) : bool :=
  match exec E evs s with Some _ => true | None => false end.
Lemma final_ok : forall E evs s, possible E evs s = true -> exec E evs s = Some (final E evs s).
Proof. intros E evs s H. unfold possible, final in *. destruct (exec E evs s); [reflexivity|discriminate]. Qed.

Lemma service_initial : forall ts other,
  Forall (fun t => match t with TReq _ p => p = QStart | TCancel _ p => p = CStart | TReconf _ p => p = FStart end) (other :: ts) ->
  initial (service ts other).
Proof.
  intros ts other F. unfold initial. cbn. repeat (split; [auto; reflexivity|]).
  intros i. inversion_clear F as [|x l FO FT]. revert i. induction FT as [|x l H FT IH]; intros [|i]; cbn; try exact FO; try exact H; apply IH.
Qed.

(** ** Isolation *)

(** Any number of requests, any interleaving, any arrival of the server's results:
    with no cancel and no reconfigure every request that returns got the answer it
    would have got alone. *)
Theorem C25_requests_only : forall E s evs s' i q r, initial s ->
  (forall k, exists q', thr s k = TReq q' QStart) -> thr s i = TReq q QStart ->
  exec E evs s = Some s' -> thr s' i = TReq q (QDone r) -> r = alone E (cfg s) q.
Proof. exact c25_requests_only. Qed.
Print Assumptions C25_requests_only.

(** The same with cancellations and reconfigurations, for a request during which the
    configuration is [c] throughout; if the answer is "cancelled" then some cancel of
    everything or of the token of this request has been executed. *)
Theorem C25_isolation : forall E c q i evs s s' r, initial s -> thr s i = TReq q QStart ->
  (forall a b s1, evs = a ++ b -> exec E a s = Some s1 -> active s1 i -> cfg s1 = c) ->
  exec E evs s = Some s' -> thr s' i = TReq q (QDone r) ->
  r = alone E c q \/
  r = RCancelled /\ exists k tok, thr s' k = TCancel tok CDone /\ (tok = None \/ tok = q_token q).
Proof. exact c25_isolation. Qed.
Print Assumptions C25_isolation.

(** Two requests whose steps alternate; the first is answered with its own node. *)
Definition two : state := service [TReq (rq 5 None) QStart; TReq (rq 6 None) QStart] (TReq (rq 7 None) QStart).
Definition interleaved : list event :=
  [Run 0; Run 1] ++ runs 0 8 ++ [Run 1; Run 0; Run 1; Run 0; Run 1; Run 0; Finish 0]
  ++ runs 1 8 ++ [Finish 1] ++ runs 0 3 ++ runs 1 2 ++ runs 0 6 ++ runs 1 7.
Example C25_requests_only_ex :
  initial two /\ (forall k, exists q', thr two k = TReq q' QStart) /\
  possible demo_env interleaved two = true /\
  exists l0 l1, thr (final demo_env interleaved two) 0 = TReq (rq 5 None) (QDone (RFailed [l0])) /\
                thr (final demo_env interleaved two) 1 = TReq (rq 6 None) (QDone (RFailed [l1])) /\
                p_node (fst l0) = Some (nd1 5) /\ p_node (fst l1) = Some (nd1 6).
Proof.
  split; [apply service_initial; repeat constructor|]. split.
  - intros [|[|[|k]]]; eexists; reflexivity.
  - split; [vm_compute; reflexivity|]. eexists. eexists.
    split; [vm_compute; reflexivity|]. split; [vm_compute; reflexivity|]. split; reflexivity.
Qed.

Example C25_isolation_ex :
  forall a b s1, interleaved = a ++ b -> exec demo_env a two = Some s1 -> active s1 0 -> cfg s1 = cfg_silicon.
Proof.
  intros a b s1 _ X _. apply (kind_exec _ _ _ _ X). intros [|[|[|k]]]; reflexivity.
Qed.

(** ** Submitted requests *)

(** Once a job is submitted, no later reconfiguration and no other request changes
    the answer, provided counterexamples look the same with and without the option
    sif (see [C25_reconfigure_submitted_refuted]). *)
Theorem C25_submitted_partial : forall E s1 evs s2 i q snap j r, reachable E s1 ->
  thr s1 i = TReq q (QAwait snap j) -> (forall e, e_ce E true e = e_ce E false e) ->
  exec E evs s1 = Some s2 -> thr s2 i = TReq q (QDone r) ->
  r = RCancelled \/
  r = answer E false (cells s1 snap) (e_verdict E (j_prog (srv s1 j)) (j_carbon (srv s1 j)) (j_args (srv s1 j))).
Proof. exact c25_submitted_partial. Qed.
Print Assumptions C25_submitted_partial.

Definition reconf_demo (us : list update) : state :=
  service [TReq (rq 5 (Some 1)) QStart; TReconf us FStart] (TCancel None CStart).
Definition plain_env : env := {|
  e_obl0 := None; e_tr := e_tr demo_env; e_verdict := e_verdict demo_env; e_ce := fun _ _ => None |}.
Example C25_submitted_ex :
  let s1 := final plain_env (runs 0 12) (reconf_demo [USif true; UBackend Carbon]) in
  let s2 := final plain_env (runs 1 5 ++ [Finish 0] ++ runs 0 9) s1 in
  reachable plain_env s1 /\ (exists snap j, thr s1 0 = TReq (rq 5 (Some 1)) (QAwait snap j)) /\
  exists l, thr s2 0 = TReq (rq 5 (Some 1)) (QDone (RFailed [l])) /\ p_node (fst l) = Some (nd1 5).
Proof.
  split; [|split].
  - exists (reconf_demo [USif true; UBackend Carbon]), (runs 0 12). split; [apply service_initial; repeat constructor|].
    apply final_ok. vm_compute. reflexivity.
  - eexists. eexists. vm_compute. reflexivity.
  - eexists. split; [vm_compute; reflexivity|reflexivity].
Qed.

(** Without that: reconfigure(sif=True) after the job was submitted changes the
    counterexample in the answer (the flag is read at conversion, line 413). *)
Theorem C25_reconfigure_submitted_refuted : exists E s1 evs s2 i q snap j r, reachable E s1 /\
  thr s1 i = TReq q (QAwait snap j) /\ cfg s1 = cfg_silicon /\
  exec E evs s1 = Some s2 /\ thr s2 i = TReq q (QDone r) /\
  r <> alone E cfg_silicon q /\ r <> RCancelled.
Proof.
  exists demo_env, (final demo_env (runs 0 12) (reconf_demo [USif true])),
    (runs 1 4 ++ [Finish 0] ++ runs 0 9).
  exists (final demo_env (runs 0 12 ++ runs 1 4 ++ [Finish 0] ++ runs 0 9) (reconf_demo [USif true])).
  exists 0, (rq 5 (Some 1)). eexists. eexists. eexists.
  split; [exists (reconf_demo [USif true]), (runs 0 12); split; [apply service_initial; repeat constructor
         |apply final_ok; vm_compute; reflexivity]|].
  split; [vm_compute; reflexivity|]. split; [reflexivity|].
  split; [vm_compute; reflexivity|]. split; [vm_compute; reflexivity|].
  split; vm_compute; discriminate.
Qed.
Print Assumptions C25_reconfigure_submitted_refuted.

(** A reconfiguration between the translation and the submission gives an answer that
    neither configuration gives: the program was translated for 8 bits and is verified
    by Carbon. *)
Definition mixed_env : env := {|
  e_obl0 := None; e_tr := fun o q => ([], TProg (t_bv o), None);
  e_verdict := fun p carbon a => if (p =? 8) && carbon then VInternal else VSuccess; e_ce := fun _ _ => None |}.
Theorem C25_reconfigure_mixes_refuted : exists E s0 evs s i q r, initial s0 /\
  exec E evs s0 = Some s /\ thr s i = TReq q (QDone r) /\ (forall k tok, thr s0 k = TCancel tok CStart -> thr s k = thr s0 k) /\
  r <> alone E (cfg s0) q /\ r <> alone E (cfg s) q.
Proof.
  exists mixed_env, (reconf_demo [UBackend Carbon; UBv 16]),
    (runs 0 8 ++ runs 1 5 ++ runs 0 3 ++ [Finish 0] ++ runs 0 2).
  eexists. exists 0, (rq 5 (Some 1)). eexists.
  split; [apply service_initial; repeat constructor|].
  split; [apply final_ok; vm_compute; reflexivity|].
  split; [vm_compute; reflexivity|]. split; [|split; vm_compute; discriminate].
  intros [|[|[|k]]] tok H; vm_compute in H; try discriminate; vm_compute; reflexivity.
Qed.
Print Assumptions C25_reconfigure_mixes_refuted.

(** The command line and the backend are chosen by two readings of the configuration
    (372-376 and viper_server.py 101-114): a job can reach Carbon with the command
    line of Silicon. *)
Theorem C25_backend_mixed_refuted : exists E s0 evs s, initial s0 /\ exec E evs s0 = Some s /\
  njob s = 1 /\ j_carbon (srv s 0) = true /\ a_carbon (j_args (srv s 0)) = false.
Proof.
  exists mixed_env, (reconf_demo [UBackend Carbon]), (runs 0 9 ++ runs 1 4 ++ runs 0 1).
  eexists. split; [apply service_initial; repeat constructor|].
  split; [apply final_ok; vm_compute; reflexivity|]. vm_compute. auto.
Qed.
Print Assumptions C25_backend_mixed_refuted.

(** ** Cancellation *)

(** cancel(token) stops only a job of a request with that token; a request is only
    answered "cancelled" after a cancel of everything or of its own token. *)
Theorem C25_cancel_target : forall E s k t j, reachable E s -> thr s k = TCancel (Some t) (CFound j) ->
  exists q p, thr s (j_owner (srv s j)) = TReq q p /\ q_token q = Some t.
Proof. exact c25_cancel_target. Qed.
Print Assumptions C25_cancel_target.

Theorem C25_cancel_reason : forall E s i q, reachable E s -> thr s i = TReq q (QDone RCancelled) ->
  exists k tok, thr s k = TCancel tok CDone /\ (tok = None \/ tok = q_token q).
Proof. exact c25_cancel_reason. Qed.
Print Assumptions C25_cancel_reason.

(** Cancelling the token of a registered job that still runs makes the request that
    owns it return "cancelled", whatever happens afterwards. *)
Theorem C25_cancel_effective : forall E s k t j, reachable E s ->
  thr s k = TCancel (Some t) CStart -> c_server (cfg s) = true ->
  jobs s t = Some j -> j_status (srv s j) = Running ->
  exists i q, token_of (thr s i) = Some t /\ (exists p, thr s i = TReq q p) /\
    forall evs s2 r, exec E (Run k :: Run k :: evs) s = Some s2 -> thr s2 i = TReq q (QDone r) -> r = RCancelled.
Proof. exact c25_cancel_effective. Qed.
Print Assumptions C25_cancel_effective.

Definition cancel_demo : state :=
  service [TReq (rq 5 (Some 1)) QStart; TReq (rq 6 (Some 2)) QStart; TCancel (Some 2) CStart] (TCancel None CStart).
Definition submitted_both : state := final demo_env (runs 0 12 ++ runs 1 12) cancel_demo.
Lemma submitted_both_reachable : reachable demo_env submitted_both.
Proof.
  exists cancel_demo, (runs 0 12 ++ runs 1 12). split; [apply service_initial; repeat constructor|].
  apply final_ok. vm_compute. reflexivity.
Qed.
Example C25_cancel_effective_ex :
  thr submitted_both 2 = TCancel (Some 2) CStart /\ c_server (cfg submitted_both) = true /\
  jobs submitted_both 2 = Some 1 /\ j_status (srv submitted_both 1) = Running.
Proof. vm_compute. auto. Qed.
Example C25_cancel_target_ex :
  thr (final demo_env [Run 2] submitted_both) 2 = TCancel (Some 2) (CFound 1).
Proof. vm_compute. reflexivity. Qed.
Example C25_cancel_reason_ex :
  let s := final demo_env ([Run 2; Run 2] ++ runs 1 2 ++ [Finish 0] ++ runs 0 9) submitted_both in
  thr s 1 = TReq (rq 6 (Some 2)) (QDone RCancelled) /\
  exists l, thr s 0 = TReq (rq 5 (Some 1)) (QDone (RFailed [l])).
Proof. split; [vm_compute; reflexivity|]. eexists. vm_compute. reflexivity. Qed.

(** No entry outlives its request: every registered job belongs to a request still in
    progress, made with that token; when all calls have returned none is left. *)
Theorem C25_no_leak : forall E s, reachable E s ->
  (forall t j, jobs s t = Some j -> exists i q p, thr s i = TReq q p /\ q_token q = Some t /\
     j_owner (srv s j) = i /\ active s i) /\
  ((forall i, finished (thr s i)) -> forall t, jobs s t = None).
Proof. exact c25_no_leak. Qed.
Print Assumptions C25_no_leak.
Example C25_no_leak_ex : jobs submitted_both 1 = Some 0 /\ jobs submitted_both 2 = Some 1.
Proof. vm_compute. auto. Qed.

(** A cancel that arrives between the submission and the registration of the job is
    lost although the job already runs. *)
Theorem C25_cancel_lost_refuted : exists E s1 evs s2 k t j i q r, reachable E s1 /\
  thr s1 k = TCancel (Some t) CStart /\ q_token q = Some t /\ j_owner (srv s1 j) = i /\ j < njob s1 /\
  j_status (srv s1 j) = Running /\ thr s2 k = TCancel (Some t) CDone /\
  exec E (Run k :: evs) s1 = Some s2 /\ thr s2 i = TReq q (QDone r) /\ r <> RCancelled.
Proof.
  exists demo_env, (final demo_env (runs 1 11) cancel_demo), (runs 1 1 ++ [Finish 0] ++ runs 1 9).
  eexists. exists 2, 2, 0, 1, (rq 6 (Some 2)). eexists.
  split; [exists cancel_demo, (runs 1 11); split; [apply service_initial; repeat constructor|apply final_ok; vm_compute; reflexivity]|].
  split; [vm_compute; reflexivity|]. split; [reflexivity|]. split; [vm_compute; reflexivity|].
  split; [vm_compute; auto|]. split; [vm_compute; reflexivity|].
  match goal with |- ?A /\ ?B /\ ?C => assert (X : B); [apply final_ok; vm_compute; reflexivity|] end.
  split; [vm_compute; reflexivity|]. split; [exact X|]. split; [vm_compute; reflexivity|discriminate].
Qed.
Print Assumptions C25_cancel_lost_refuted.

(** Two requests with the same token: the older job still runs but cancel(token)
    cannot reach it, even after the newer one has finished. *)
Definition same_token : state :=
  service [TReq (rq 5 (Some 1)) QStart; TReq (rq 6 (Some 1)) QStart; TCancel (Some 1) CStart] (TCancel None CStart).
Theorem C25_token_reuse_refuted : exists E s k t j i q snap, reachable E s /\
  thr s i = TReq q (QAwait snap j) /\ q_token q = Some t /\ j_status (srv s j) = Running /\
  c_server (cfg s) = true /\ thr s k = TCancel (Some t) CStart /\
  exists s', exec E [Run k] s = Some s' /\ thr s' k = TCancel (Some t) CDone /\ j_status (srv s' j) = Running.
Proof.
  exists demo_env, (final demo_env (runs 0 12 ++ runs 1 12 ++ [Finish 1] ++ runs 1 9) same_token).
  exists 2, 1, 0, 0, (rq 5 (Some 1)). eexists.
  split; [eexists same_token, _; split; [apply service_initial; repeat constructor|apply final_ok; vm_compute; reflexivity]|].
  split; [vm_compute; reflexivity|]. split; [reflexivity|]. split; [vm_compute; reflexivity|].
  split; [reflexivity|]. split; [vm_compute; reflexivity|].
  eexists. split; [apply final_ok; vm_compute; reflexivity|]. split; vm_compute; reflexivity.
Qed.
Print Assumptions C25_token_reuse_refuted.

(** ** No deadlock: while some call has not returned, some thread or the server can
    make a step. *)
Theorem C25_no_deadlock : forall E s i, reachable E s -> ~ finished (thr s i) ->
  exists e s', exec1 E e s = Some s'.
Proof. exact c25_progress. Qed.
Print Assumptions C25_no_deadlock.
Example C25_no_deadlock_ex : ~ finished (thr submitted_both 0) /\ exec1 demo_env (Run 0) submitted_both = None.
Proof. split; [vm_compute; auto|vm_compute; reflexivity]. Qed.
