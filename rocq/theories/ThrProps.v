(** C56: threads share memory safely, and what the verifier assumes about them is true. *)
From Coq Require Import List Bool Arith ZArith QArith Lqa Lia.
From Verif Require Import ThrModel ThrSpec ThrProofs ThrProofs2 ThrRun.
Import ListNotations.
Local Open Scope nat_scope.

(** ** C56, no data races.  Full property: for all programs and executions.  Missing:
    postconditions with permission to global variables, MayStart or ThreadPost (refuted
    below), methods named twice, threads ending with an exception and ill-typed arguments
    (refuted below). *)
Theorem C56_no_race_partial :
  forall (sub : nat -> nat -> bool) (P : nat -> method) (st0 : state) (tr : list label) (st : state),
  well_formed P -> initial st0 -> steps sub P st0 tr st ->
  Forall distinct_options tr -> Forall (typed_label sub P) tr -> Forall no_exception tr ->
  forall (i j : nat) (r : res), running st i -> running st j -> i <> j ->
  (holds st i r + holds st j r <= 1)%Q.
Proof. intros sub P st0 tr st W I S D T N. exact (proj1 (race sub P W st0 tr st I S D T N)). Qed.
Print Assumptions C56_no_race_partial.

(** ** C56, true assumptions: every fact inhaled by creating, starting and joining threads
    holds when it is inhaled. *)
Theorem C56_assumptions_partial :
  forall (sub : nat -> nat -> bool) (P : nat -> method) (st0 : state) (tr : list label) (st : state),
  well_formed P -> initial st0 -> steps sub P st0 tr st ->
  Forall distinct_options tr -> Forall (typed_label sub P) tr -> Forall no_exception tr ->
  Forall assumes_truth tr.
Proof. intros sub P st0 tr st W I S D T N. exact (proj2 (race sub P W st0 tr st I S D T N)). Qed.
Print Assumptions C56_assumptions_partial.

(** ** C56, started once: if start passes verification, the thread has not been started. *)
Theorem C56_start_once_partial :
  forall (sub : nat -> nat -> bool) (P : nat -> method) (st0 : state) (tr : list label)
         (st st' : state) (i t : nat) (opts : list nat) (ok : bool),
  well_formed P -> initial st0 -> steps sub P st0 tr st ->
  Forall distinct_options tr -> Forall (typed_label sub P) tr -> Forall no_exception tr ->
  NoDup opts -> step sub P st (LStart i t opts ok) st' ->
  e_status (thread st t) = Created.
Proof. intros sub P st0 tr st st' i t opts ok W. exact (once sub P W st0 tr st i t opts ok st'). Qed.
Print Assumptions C56_start_once_partial.

(** A program to which these apply: method 0 needs field 0 of its argument, increases it by
    one and returns it; method 1 may join the thread it is given, with half of its result.
    Two threads join the first one and then share its field. *)
Definition start_state : state :=
  St (fun _ _ => VInt 0) [En 0 [] [] Running (fun r => if thread_resource r then 0%Q else 1%Q)].

Lemma start_initial : initial start_state.
Proof.
  exists (En 0 [] [] Running (fun r => if thread_resource r then 0%Q else 1%Q)).
  split; [reflexivity|]. split; [reflexivity|]. intros r. cbn [e_perm].
  destruct (thread_resource r); repeat split; try (intros; discriminate); try lra.
Qed.

Definition P_ok (m : nat) : method :=
  match m with
  | 0 => Meth [TObject] [Acc (AField 0 0) 1] [Acc (AField 0 0) 1; Same (XField 0 0) (XAdd (XOld 0 0) (XLit (VInt 1)))] None (fun _ => true)
  | _ => Meth [TThread] [Acc (AThreadPost 0) (1 # 2)] [] None (fun _ => true)
  end.

Definition o : val := VObj 0 0.

Definition c_ok : list command :=
  [CCreate 0 0 [o]; CStart 0 1 [0; 1]; CCreate 0 1 [VThread 1]; CStart 0 2 [1];
   CWrite 1 o 0 (VInt 1); CFinish 1; CJoin 2 1 [0]; CJoin 0 1 [1; 0]].

(** The labels of that execution. *)
Definition tr_ok : list label :=
  [LCreate 0 1 0 [o] true; LStart 0 1 [0; 1] true; LCreate 0 2 1 [VThread 1] true; LStart 0 2 [1] true;
   LOther; LOther; LJoin 2 1 [0] true; LJoin 0 1 [1; 0] true].

Lemma nodup1 (m : nat) : NoDup [m].
Proof. constructor; [intros []|constructor]. Qed.

Lemma nodup2 (m n : nat) : m <> n -> NoDup [m; n].
Proof. intros H. constructor; [intros [E|[]]; congruence|apply nodup1]. Qed.

Lemma P_ok_well_formed : well_formed P_ok.
Proof.
  intros [|m]; cbn [P_ok m_post]; split.
  - repeat constructor.
  - intros a b i f [E|[E|[]]] I; [discriminate|]. inversion E; subst. cbn in I. destruct I as [I|[]]. inversion I; subst.
    exists 1%Q. split; [left; reflexivity|lra].
  - constructor.
  - intros a b i f [] I.
Qed.

Example C56_ex : well_formed P_ok /\ initial start_state /\ exists st,
  steps Nat.eqb P_ok start_state tr_ok st /\
  Forall distinct_options tr_ok /\ Forall (typed_label Nat.eqb P_ok) tr_ok /\ Forall no_exception tr_ok /\
  running st 0 /\ running st 2 /\
  (holds st 0 (RField o 0) == 1 # 2)%Q /\ (holds st 2 (RField o 0) == 1 # 2)%Q.
Proof.
  split; [exact P_ok_well_formed|]. split; [exact start_initial|].
  destruct (run_to Nat.eqb P_ok c_ok start_state tr_ok
    (fun st =>
       is_running st 0 && is_running st 2 &&
       Qeq_bool (holds st 0 (RField o 0)) (1 # 2) && Qeq_bool (holds st 2 (RField o 0)) (1 # 2))
    ltac:(vm_compute; reflexivity) ltac:(vm_compute; reflexivity)) as (st & S & T).
  exists st. split; [exact S|].
  apply andb_true_iff in T as (T & ?); apply andb_true_iff in T as (T & ?); apply andb_true_iff in T as (T & ?).
  split; [repeat constructor; cbn; intuition discriminate|].
  split; [repeat constructor|]. split; [repeat constructor|].
  apply is_running_spec in T. apply is_running_spec in H1.
  repeat split; try (apply Qeq_bool_iff; assumption); intuition.
Qed.

(** ** C56 fails: permission to a global variable in a postcondition is not multiplied by
    the share of the joining thread (contract.py 256-281), so two threads that join with
    half of the thread each get all of it. *)
Definition P_global (m : nat) : method :=
  match m with
  | 0 => Meth [] [Acc (AGlobal 0) 1] [Acc (AGlobal 0) 1] None (fun _ => true)
  | _ => Meth [TThread] [Acc (AThreadPost 0) (1 # 2)] [] None (fun _ => true)
  end.

Theorem C56_global_refuted :
  exists (P : nat -> method) (tr : list label) (st : state) (r : res),
  (forall m, self_framing (m_post (P m))) /\ steps Nat.eqb P start_state tr st /\
  Forall distinct_options tr /\ Forall (typed_label Nat.eqb P) tr /\ Forall no_exception tr /\
  running st 0 /\ running st 2 /\ (holds st 0 r == 1)%Q /\ (holds st 2 r == 1)%Q.
Proof.
  exists P_global, [LCreate 0 1 0 [] true; LStart 0 1 [0] true; LCreate 0 2 1 [VThread 1] true; LStart 0 2 [1] true;
                    LOther; LJoin 2 1 [0] true; LJoin 0 1 [0] true].
  destruct (run_to Nat.eqb P_global
    [CCreate 0 0 []; CStart 0 1 [0]; CCreate 0 1 [VThread 1]; CStart 0 2 [1]; CFinish 1; CJoin 2 1 [0]; CJoin 0 1 [0]]
    start_state _
    (fun st => is_running st 0 && is_running st 2 &&
       Qeq_bool (holds st 0 (RGlobal 0)) 1 && Qeq_bool (holds st 2 (RGlobal 0)) 1)
    ltac:(vm_compute; reflexivity) ltac:(vm_compute; reflexivity)) as (st & S & T).
  exists st, (RGlobal 0).
  split. { intros [|m] a b i f; cbn [P_global m_post]; [intros [E|[]]; discriminate|intros []]. }
  split; [exact S|].
  split; [repeat constructor; cbn; intuition discriminate|].
  split; [repeat constructor|]. split; [repeat constructor|].
  apply andb_true_iff in T as (T & ?); apply andb_true_iff in T as (T & ?); apply andb_true_iff in T as (T & ?).
  apply is_running_spec in T. apply is_running_spec in H1.
  repeat split; try (apply Qeq_bool_iff; assumption); intuition.
Qed.
Print Assumptions C56_global_refuted.

(** ** C56 fails: nor is MayStart in a postcondition (contract.py 173-178), so two threads
    may both start a third one. *)
Definition P_maystart (m : nat) : method :=
  match m with
  | 0 => Meth [TThread] [Acc (AMayStart 0) 1] [Acc (AMayStart 0) 1] None (fun _ => true)
  | 1 => Meth [TThread] [Acc (AThreadPost 0) (1 # 2)] [] None (fun _ => true)
  | _ => Meth [] [] [] None (fun _ => true)
  end.

Theorem C56_maystart_refuted :
  exists (P : nat -> method) (tr : list label) (st st' : state) (t : nat) (opts : list nat) (ok : bool),
  (forall m, self_framing (m_post (P m))) /\ steps Nat.eqb P start_state tr st /\
  Forall distinct_options tr /\ Forall (typed_label Nat.eqb P) tr /\ Forall no_exception tr /\
  NoDup opts /\ step Nat.eqb P st (LStart 0 t opts ok) st' /\ e_status (thread st t) = Running.
Proof.
  exists P_maystart,
    [LCreate 0 1 2 [] true; LCreate 0 2 0 [VThread 1] true; LStart 0 2 [0] true;
     LCreate 0 3 1 [VThread 2] true; LStart 0 3 [1] true;
     LOther; LJoin 3 2 [0] true; LJoin 0 2 [0] true; LStart 3 1 [2] true].
  destruct (run_to Nat.eqb P_maystart
    [CCreate 0 2 []; CCreate 0 0 [VThread 1]; CStart 0 2 [0]; CCreate 0 1 [VThread 2]; CStart 0 3 [1];
     CFinish 2; CJoin 3 2 [0]; CJoin 0 2 [0]; CStart 3 1 [2]] start_state _
    (fun st => is_running st 1 &&
       match perform Nat.eqb P_maystart st (CStart 0 1 [2]) with Some (LStart 0 1 [2] true, _) => true | _ => false end)
    ltac:(vm_compute; reflexivity) ltac:(vm_compute; reflexivity)) as (st & S & T).
  apply andb_true_iff in T as (R & T).
  destruct (perform Nat.eqb P_maystart st (CStart 0 1 [2])) as [(l & st')|] eqn:E; [|discriminate].
  apply perform_sound in E.
  exists st, st', 1, [2], true.
  split. { intros [|[|m]] a b i f; cbn [P_maystart m_post]; [intros [E'|[]]; discriminate|intros []|intros []]. }
  split; [exact S|].
  split; [repeat constructor; cbn; intuition discriminate|].
  split; [repeat constructor|]. split; [repeat constructor|].
  split; [apply nodup1|]. split; [|exact (proj2 (is_running_spec _ _ R))].
  assert (L : l = LStart 0 1 [2] true).
  { repeat match type of T with match ?x with _ => _ end = true => destruct x; try discriminate end. reflexivity. }
  rewrite <- L. exact E.
Qed.
Print Assumptions C56_maystart_refuted.

(** ** C56 fails: a method named twice in join (directly, or because an inherited method has
    the same function) gives its postcondition twice (call.py 1651-1672). *)
Definition P_field (m : nat) : method :=
  Meth [TObject] [Acc (AField 0 0) 1] [Acc (AField 0 0) 1] None (fun _ => true).

Theorem C56_duplicate_refuted :
  exists (P : nat -> method) (tr : list label) (st : state) (r : res),
  well_formed P /\ steps Nat.eqb P start_state tr st /\
  Forall (typed_label Nat.eqb P) tr /\ Forall no_exception tr /\
  running st 0 /\ running st 2 /\ (holds st 0 r == 1)%Q /\ (holds st 2 r == 1)%Q.
Proof.
  exists P_field, [LCreate 0 1 0 [o] true; LStart 0 1 [0] true; LOther; LJoin 0 1 [0; 0] true;
                   LCreate 0 2 0 [o] true; LStart 0 2 [0] true].
  destruct (run_to Nat.eqb P_field
    [CCreate 0 0 [o]; CStart 0 1 [0]; CFinish 1; CJoin 0 1 [0; 0]; CCreate 0 0 [o]; CStart 0 2 [0]]
    start_state _
    (fun st => is_running st 0 && is_running st 2 &&
       Qeq_bool (holds st 0 (RField o 0)) 1 && Qeq_bool (holds st 2 (RField o 0)) 1)
    ltac:(vm_compute; reflexivity) ltac:(vm_compute; reflexivity)) as (st & S & T).
  exists st, (RField o 0).
  split. { intros m. split; [repeat constructor|]. intros a b i f [E|[]]; discriminate. }
  split; [exact S|].
  split; [repeat constructor|]. split; [repeat constructor|].
  apply andb_true_iff in T as (T & ?); apply andb_true_iff in T as (T & ?); apply andb_true_iff in T as (T & ?).
  apply is_running_spec in T. apply is_running_spec in H1.
  repeat split; try (apply Qeq_bool_iff; assumption); intuition.
Qed.
Print Assumptions C56_duplicate_refuted.

(** ** C56 fails: joining a thread that ended with a declared exception assumes the normal
    postcondition (call.py 1692-1769 looks at postconditions only). *)
Definition P_exc (m : nat) : method :=
  Meth [TObject] [Acc (AField 0 0) 1] [Acc (AField 0 0) 1; Same (XField 0 0) (XLit (VInt 1))]
       (Some [Acc (AField 0 0) 1]) (fun _ => true).

Theorem C56_exception_refuted :
  exists (P : nat -> method) (tr : list label) (st : state),
  well_formed P /\ steps Nat.eqb P start_state tr st /\
  Forall distinct_options tr /\ Forall (typed_label Nat.eqb P) tr /\
  exists l, In l tr /\ ~ assumes_truth l.
Proof.
  exists P_exc, [LCreate 0 1 0 [o] true; LStart 0 1 [0] true; LFail 1; LJoin 0 1 [0] false].
  destruct (run_to Nat.eqb P_exc [CCreate 0 0 [o]; CStart 0 1 [0]; CFail 1; CJoin 0 1 [0]]
    start_state _ (fun st => true) ltac:(vm_compute; reflexivity) ltac:(vm_compute; reflexivity)) as (st & S & T).
  exists st.
  split. { intros m. split; [repeat constructor|]. intros a b i f [E|[E|[]]] I; [discriminate|]. inversion E; subst.
    cbn in I. destruct I as [I|[]]. inversion I; subst. exists 1%Q. split; [left; reflexivity|lra]. }
  split; [exact S|].
  split; [repeat constructor; cbn; intuition discriminate|].
  split; [repeat constructor|].
  exists (LJoin 0 1 [0] false). split; [right; right; right; left; reflexivity|discriminate].
Qed.
Print Assumptions C56_exception_refuted.

(** ** C56, argument types: creating a thread passes the check of argument types exactly if
    the number of arguments of a wrong type is even (the checks are combined by EqCmp). *)
Theorem C56_arg_types_exact :
  forall (sub : nat -> nat -> bool) (P : nat -> method) (st : state) (p : res -> Q)
         (args : list val) (types : list ty),
  truth sub P st p (type_checks (combine args types)) = true <->
  Nat.Even (ill_typed sub args types).
Proof. exact type_check_passes. Qed.
Print Assumptions C56_arg_types_exact.

Example C56_arg_types_ex :
  truth Nat.eqb P_ok start_state (fun _ => 0%Q) (type_checks (combine [VInt 1; o; VThread 1] [TInt; TInt; TInt])) = true /\
  truth Nat.eqb P_ok start_state (fun _ => 0%Q) (type_checks (combine [VInt 1; VInt 2; VThread 1] [TInt; TInt; TInt])) = false.
Proof. split; reflexivity. Qed.

(** So two arguments of a wrong type are accepted, and start assumes that they have the
    declared type. *)
Definition P_types (m : nat) : method := Meth [TInt; TInt] [] [] None (fun _ => true).

Theorem C56_types_refuted :
  exists (P : nat -> method) (tr : list label) (st : state),
  well_formed P /\ steps Nat.eqb P start_state tr st /\
  Forall distinct_options tr /\ Forall no_exception tr /\
  exists l, In l tr /\ ~ assumes_truth l.
Proof.
  exists P_types, [LCreate 0 1 0 [o; o] true; LStart 0 1 [0] false].
  destruct (run_to Nat.eqb P_types [CCreate 0 0 [o; o]; CStart 0 1 [0]]
    start_state _ (fun st => true) ltac:(vm_compute; reflexivity) ltac:(vm_compute; reflexivity)) as (st & S & T).
  exists st.
  split. { intros m. split; [repeat constructor|]. intros a b i f []. }
  split; [exact S|].
  split; [repeat constructor; cbn; intuition discriminate|].
  split; [repeat constructor|].
  exists (LStart 0 1 [0] false). split; [right; left; reflexivity|discriminate].
Qed.
Print Assumptions C56_types_refuted.

(** ** C56, the constructor: if a call is accepted, target, args and group are what Python
    passes, and kwargs and daemon are not given, unless as the very first argument. *)
Theorem C56_constructor :
  forall (nargs : nat) (keywords : list kw) (g : option nat) (t a : nat),
  python_call nargs keywords -> handle_args nargs keywords = Bound g t a ->
  passed nargs keywords KTarget t /\ passed nargs keywords KArgs a /\
  (forall pos, g = Some pos <-> passed nargs keywords KGroup pos) /\
  (forall pos, passed nargs keywords KKwargs pos \/ passed nargs keywords KDaemon pos -> pos = 0 /\ nargs = 0).
Proof. exact handle_bound. Qed.
Print Assumptions C56_constructor.

Example C56_constructor_ex :
  handle_args 1 [KArgs; KName; KTarget] = Bound (Some 0) 3 1 /\ python_call 1 [KArgs; KName; KTarget].
Proof.
  split; [reflexivity|]. split; [cbn; lia|]. cbn. repeat constructor; cbn; intuition discriminate.
Qed.

(** Thread(kwargs=..., target=..., args=...) is accepted, and kwargs is ignored: the position
    0 of the argument counts as absent (call.py 1456). *)
Theorem C56_kwargs_refuted :
  exists (nargs : nat) (keywords : list kw) (g : option nat) (t a pos : nat),
  python_call nargs keywords /\ handle_args nargs keywords = Bound g t a /\ passed nargs keywords KKwargs pos.
Proof.
  exists 0, [KKwargs; KTarget; KArgs], None, 1, 2, 0.
  split; [|split; [reflexivity|right; split; [lia|reflexivity]]].
  split; [cbn; lia|]. cbn. repeat constructor; cbn; intuition discriminate.
Qed.
Print Assumptions C56_kwargs_refuted.

(** Thread(target=f) for an f without parameters, which Python allows, crashes the
    translator (call.py 1471). *)
Theorem C56_no_args_refuted :
  exists (nargs : nat) (keywords : list kw), python_call nargs keywords /\ handle_args nargs keywords = Crash.
Proof.
  exists 0, [KTarget]. split; [|reflexivity]. split; [cbn; lia|]. cbn. repeat constructor. intros [].
Qed.
Print Assumptions C56_no_args_refuted.
