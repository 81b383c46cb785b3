(** Property C49: verified programs do not deadlock. *)
From Coq Require Import NArith ZArith QArith List Permutation Bool Lqa.
From Verif Require Import WaitModel WaitSpec WaitProofs.
Import ListNotations.
Open Scope Q_scope.

(** * Example programs *)
Definition none : assn := {| pure := fun _ => True; locks := fun _ => []; waits := fun _ => [] |}.
Definition var (i : nat) (s : store) : ref := match nth_error s i with Some (VRef r) => r | _ => (0%N, 0) end.
Definition keep (_ : val) (s : store) : store := s.
Definition push (v : val) (s : store) : store := v :: s.

(** [worker(l1, l2)] requires [WaitLevel() < Level(l1)] and [Level(l1) < Level(l2)] and takes
    both locks. *)
Definition worker : meth := {|
  m_pre := {| pure := fun s => Level (var 0 s) < Level (var 1 s); locks := fun _ => []; waits := fun s => [var 0 s] |};
  m_post := none;
  m_body := Seq (Acquire (var 0)) (Seq (Acquire (var 1)) (Seq (Release (var 0)) (Release (var 1))));
  m_ret := fun _ => VNone |}.
(** The main method creates two locks, starts two workers and then works on its own as long as
    the values it reads are different from 0. *)
Definition both (s : store) : list val := [VRef (var 2 s); VRef (var 1 s)].
Definition go_on (s : store) : bool := match s with VInt 0 :: _ => false | _ => true end.
Definition main_worker : meth := {|
  m_pre := none; m_post := none;
  m_body :=
    Seq (NewLock (fun _ => None) (fun _ => None) push)                       (* [l1] *)
    (Seq (NewLock (fun s => Some (var 0 s)) (fun _ => None) push)            (* [l2; l1] *)
    (Seq (Do (fun s v => v :: s))                                            (* [v; l2; l1] *)
    (Seq (Start 0 both keep)
    (Seq (Start 0 both keep)
    (While go_on [0%nat]
       {| pure := fun _ => True; locks := fun _ => []; waits := fun s => [var 2 s] |}
       (Seq (Call 0 both keep) (Do (fun s v => v :: tl s))))))));
  m_ret := fun _ => VNone |}.
Definition two_workers : prog := [worker; main_worker].

Ltac norm := unfold keep, push, both, acquire_pre, acquire_post, release_pre, release_post, init_pre, init_post, worker, main_worker, none in *; cbn [pure locks waits m_pre m_post m_body m_ret app tl arg nth_error lock_of opt_val] in *.
Ltac lk := repeat match goal with
  | H : initialize_current_wait_level _ _ _ |- _ => destruct H as (? & ?)
  | H : create_level_below _ _ _ |- _ => destruct H as (? & ?)
  | H : Forall _ (_ :: _) |- _ => inversion H; clear H; subst
  | H : Forall _ [] |- _ => clear H
  end.
Ltac fin := lk; repeat first [exact Logic.I | assumption | lra | reflexivity | apply Forall_nil | apply Forall_cons | split | progress cbn in *].

Lemma worker_verified C P : method_verified C P worker.
Proof.
  intros a r PU W. norm. inversion W as [|? ? W1 _]; subst. cbn.
  split; [exact Logic.I|]. exists []. split; [reflexivity|]. split; [fin|]. intros ? c1 ?I _ _. norm.
  split; [exact Logic.I|]. exists [var 0 a]. split; [reflexivity|]. split; [fin|]. intros ? c2 ?I _ _. norm.
  split; [exact Logic.I|]. exists [var 1 a]. split; [apply perm_swap|]. split; [constructor|]. intros ? c3 ?I _ _. norm.
  split; [exact Logic.I|]. exists []. split; [reflexivity|]. split; [constructor|]. intros ? c4 ?I _ _. norm.
  split; [exact Logic.I|]. exists []. repeat split; auto; constructor.
Qed.
Lemma main_worker_verified C : method_verified C two_workers main_worker.
Proof.
  intros a r _ _. cbn [m_body main_worker check]. 
  split; [exact Logic.I|]. exists []. split; [reflexivity|]. split; [constructor|]. intros v c1 I1 PU W. norm.
  destruct v as [| |l1]; try contradiction. inversion W as [|? ? W1 _]; subst. clear W PU.
  split; [exact Logic.I|]. exists []. split; [reflexivity|]. split; [constructor|]. intros v c2 I2 PU W. norm.
  destruct v as [| |l2]; try contradiction. cbn in PU. destruct PU as (PU & _). clear W.
  intros v. cbn.
  assert (R1 : r < Level l1) by (lk; lra).
  split; [reflexivity|]. split; [exact PU|]. exists []. split; [reflexivity|]. split.
  { destruct (start_checks_waits C); auto. fin. }
  intros t1 _. split; [reflexivity|]. split; [exact PU|]. exists []. split; [reflexivity|]. split.
  { destruct (start_checks_waits C); auto. fin. }
  intros t2 _. split.
  - split; [exact Logic.I|]. exists []. split; [reflexivity|]. split; [fin|].
    intros s' L AG _ _ _ _. split; [exact Logic.I|]. exists []. repeat split; auto; constructor.
  - intros s' L AG _ _ (_ & I3) W.
    destruct s' as [|x s']; [discriminate (AG 1%nat ltac:(cbn; intuition congruence))|].
    assert (E1 : var 1 (x :: s') = l2) by (unfold var; rewrite <- (AG 1%nat); [reflexivity|cbn; intuition congruence]).
    assert (E2 : var 2 (x :: s') = l1) by (unfold var; rewrite <- (AG 2%nat); [reflexivity|cbn; intuition congruence]).
    norm. rewrite E2 in W. inversion W as [|? ? W2 _]; subst.
    split; [unfold var at 1 2; cbn; exact PU|]. exists []. split; [reflexivity|]. split; [unfold var; fin|].
    intros ? c3 _ _ _ v0. split.
    + intros i NI. destruct i as [|i]; [exfalso; apply NI; left; reflexivity|]. reflexivity.
    + split; [exact Logic.I|]. exists []. split; [reflexivity|]. split; [|reflexivity].
      change (var 2 (v0 :: tl (x :: s'))) with (var 2 (x :: s')). fin.
Qed.
Lemma two_workers_verified C : verified C two_workers.
Proof.
  intros m me E. destruct m as [|[|m]]; cbn in E; inversion E; subst; [apply worker_verified|apply main_worker_verified|].
  destruct m; discriminate.
Qed.

(** [taker(l)] requires [WaitLevel() < Level(l)] and takes the lock. *)
Definition taker : meth := {|
  m_pre := {| pure := fun _ => True; locks := fun _ => []; waits := fun s => [var 0 s] |};
  m_post := none;
  m_body := Seq (Acquire (var 0)) (Release (var 0));
  m_ret := fun _ => VNone |}.
(** Takes a new lock, starts a thread that needs it, and waits for the thread. *)
Definition main_join : meth := {|
  m_pre := none; m_post := none;
  m_body :=
    Seq (NewLock (fun _ => None) (fun _ => None) push)                       (* [l] *)
    (Seq (Acquire (var 0))
    (Seq (Start 0 (fun s => [VRef (var 0 s)]) push)                          (* [t; l] *)
    (Seq (Join (var 0))
         (Release (var 1)))));
  m_ret := fun _ => VNone |}.
Definition start_join : prog := [taker; main_join].
(** Starts a thread that needs a lock, takes the lock, and waits for the thread in a loop that
    is executed once. *)
Definition main_loop : meth := {|
  m_pre := none; m_post := none;
  m_body :=
    Seq (NewLock (fun _ => None) (fun _ => None) push)                       (* [l] *)
    (Seq (Start 0 (fun s => [VRef (var 0 s)]) push)                          (* [t; l] *)
    (Seq (Acquire (var 1))
    (Seq (Do (fun s _ => VInt 1 :: s))                                       (* [1; t; l] *)
    (Seq (While go_on [0%nat] none
            (Seq (Join (var 1)) (Do (fun s _ => VInt 0 :: tl s))))
         (Release (var 2))))));
  m_ret := fun _ => VNone |}.
Definition join_in_loop : prog := [taker; main_loop].

Lemma taker_verified C P : method_verified C P taker.
Proof.
  intros a r PU W. norm. inversion W as [|? ? W1 _]; subst. cbn.
  split; [exact Logic.I|]. exists []. split; [reflexivity|]. split; [fin|]. intros ? c1 I1 _ _. norm.
  split; [exact Logic.I|]. exists []. split; [reflexivity|]. split; [constructor|]. intros ? c4 _ _ _. norm.
  split; [exact Logic.I|]. exists []. repeat split; auto; constructor.
Qed.
Lemma start_join_verified : verified nagini start_join.
Proof.
  intros m me E. destruct m as [|[|m]]; cbn in E; inversion E; subst; [apply taker_verified| |destruct m; discriminate].
  intros a r _ _. cbn [m_body main_join check].
  split; [exact Logic.I|]. exists []. split; [reflexivity|]. split; [constructor|]. intros v c1 I1 PU W. norm.
  destruct v as [| |l]; try contradiction. inversion W as [|? ? W1 _]; subst. clear W PU.
  assert (R1 : r < Level l) by (lk; lra).
  split; [exact Logic.I|]. exists []. split; [reflexivity|]. split; [fin|]. intros ? c2 I2 _ _. norm.
  cbn [check nth_error start_join]. split; [reflexivity|]. split; [exact Logic.I|]. exists [l]. split; [reflexivity|].
  split; [exact Logic.I|]. intros t TL. split; [exact TL|].
  split; [exact Logic.I|]. exists []. split; [reflexivity|]. split; [constructor|]. intros ? c4 _ _ _. norm.
  split; [exact Logic.I|]. exists []. repeat split; auto; constructor.
Qed.
Lemma join_in_loop_verified C : join_uses_loop_residue C = false -> verified C join_in_loop.
Proof.
  intros JC m me E. destruct m as [|[|m]]; cbn in E; inversion E; subst; [apply taker_verified| |destruct m; discriminate].
  intros a r _ _. cbn [m_body main_loop check].
  split; [exact Logic.I|]. exists []. split; [reflexivity|]. split; [constructor|]. intros v c1 I1 PU W. norm.
  destruct v as [| |l]; try contradiction. inversion W as [|? ? W1 _]; subst. clear W PU.
  assert (R1 : r < Level l) by (lk; lra).
  cbn [check nth_error join_in_loop]. split; [reflexivity|]. split; [exact Logic.I|]. exists []. split; [reflexivity|]. split.
  { destruct (start_checks_waits C); auto. cbn. fin. }
  intros t (_ & TL).
  split; [exact Logic.I|]. exists []. split; [reflexivity|]. split; [cbn; fin|]. intros ? c2 I2 _ _. norm. cbn.
  intros _. split.
  - split; [exact Logic.I|]. exists [l]. split; [reflexivity|]. split; [constructor|].
    intros s' L AG _ _ _ _.
    assert (E2 : var 2 s' = l) by (unfold var; rewrite <- (AG 2%nat); [reflexivity|cbn; intuition congruence]).
    split; [exact Logic.I|]. exists []. rewrite E2. split; [reflexivity|]. split; [constructor|]. intros ? c4 _ _ _. norm.
    split; [exact Logic.I|]. exists []. repeat split; auto; constructor.
  - intros s' L AG _ _ (_ & I3) _. rewrite JC.
    destruct s' as [|x s']; [discriminate (AG 1%nat ltac:(cbn; intuition congruence))|].
    assert (E1 : var 1 (x :: s') = t) by (unfold var; rewrite <- (AG 1%nat); [reflexivity|cbn; intuition congruence]).
    rewrite E1. split; [split; [constructor|exact TL]|]. intros _. split.
    + intros i NI. destruct i as [|i]; [exfalso; apply NI; left; reflexivity|]. reflexivity.
    + split; [exact Logic.I|]. exists []. repeat split; auto; constructor.
Qed.

Lemma steps_trans C P st st' st'' : steps C P st st' -> steps C P st' st'' -> steps C P st st''.
Proof. intros S T. revert S. induction T as [|a b c T IH E]; intros S; [exact S|]. exact (steps_step _ _ _ _ _ (IH S) E). Qed.
Lemma steps_front C P st st' st'' : step C P st st' -> steps C P st' st'' -> steps C P st st''.
Proof. intros S. apply steps_trans. eapply steps_step; [apply steps_refl|exact S]. Qed.
Ltac loc A B := eapply steps_front; [apply (s_local _ _ A B); constructor; first [reflexivity|idtac]|]; cbn [app m_body m_ret taker main_join main_loop tl].

(** The states in which the two programs are stuck. *)
Definition start_join_stuck : state :=
  let m := (0%N, 0) in let l := (1%N, 1) in let t := (2%N, 2) in
  St [Thr m (Join (var 0)) [VRef t; VRef l] [KSeq (Release (var 1))] [l];
      Thr t (Acquire (var 0)) [VRef l] [KSeq (Release (var 0))] []] 3.
Definition join_in_loop_stuck : state :=
  let m := (0%N, 0) in let l := (1%N, 1) in let t := (2%N, 1#2) in
  St [Thr m (Join (var 1)) [VInt 1; VRef t; VRef l]
        [KSeq (Do (fun s _ => VInt 0 :: tl s));
         KLoop go_on [0%nat] none (Seq (Join (var 1)) (Do (fun s _ => VInt 0 :: tl s)));
         KSeq (Release (var 2))] [l];
      Thr t (Acquire (var 0)) [VRef l] [KSeq (Release (var 0))] []] 3.
Definition start_state (me : meth) : state := St [Thr (0%N, 0) (m_body me) [] [] []] 1.

Lemma start_join_runs : steps nagini start_join (start_state main_join) start_join_stuck.
Proof.
  unfold start_state, start_join_stuck. cbv zeta. cbn [m_body main_join].
  loc (@nil thread) (@nil thread).
  eapply steps_front; [apply (s_new nagini start_join [] [] _ _ _ _ _ _ _ _ 1); split; cbn; auto|]. cbn [app].
  loc (@nil thread) (@nil thread). loc (@nil thread) (@nil thread).
  eapply steps_front; [apply (s_acquire nagini start_join [] [])|].
  { intros (t & [<-|[]] & []). }
  cbn [app]. loc (@nil thread) (@nil thread). loc (@nil thread) (@nil thread).
  eapply steps_front; [apply (s_start nagini start_join [] [] _ _ _ _ _ _ _ [(1%N, 1)] _ 2 taker)|].
  { reflexivity. } { reflexivity. } { constructor; [reflexivity|constructor]. } { exact Logic.I. }
  cbn [app m_pre taker locks m_body].
  match goal with |- steps _ _ (St [_; ?t] _) _ => loc (@nil thread) [t]; loc (@nil thread) [t] end.
  match goal with |- steps _ _ (St [?t; _] _) _ => loc [t] (@nil thread) end.
  apply steps_refl.
Qed.
Lemma join_in_loop_runs C : steps C join_in_loop (start_state main_loop) join_in_loop_stuck.
Proof.
  unfold start_state, join_in_loop_stuck. cbv zeta. cbn [m_body main_loop].
  loc (@nil thread) (@nil thread).
  eapply steps_front; [apply (s_new C join_in_loop [] [] _ _ _ _ _ _ _ _ 1)|].
  { split; [|exact Logic.I]. cbn. unfold bounds. destruct (start_checks_waits C); repeat constructor. }
  cbn [app].
  loc (@nil thread) (@nil thread). loc (@nil thread) (@nil thread).
  eapply steps_front; [apply (s_start C join_in_loop [] [] _ _ _ _ _ _ _ [] _ (1#2) taker)|].
  { reflexivity. } { reflexivity. } { unfold bounds. destruct (start_checks_waits C); repeat constructor. }
  { destruct (start_checks_waits C); repeat constructor. }
  cbn [app m_pre taker locks m_body].
  match goal with |- steps _ _ (St [_; ?t] _) _ => loc (@nil thread) [t]; loc (@nil thread) [t] end.
  match goal with |- steps _ _ (St [_; ?t] _) _ => eapply steps_front; [apply (s_acquire C join_in_loop [] [t])|] end.
  { intros (t & [<-|[<-|[]]] & []). }
  cbn [app].
  match goal with |- steps _ _ (St [_; ?t] _) _ => loc (@nil thread) [t]; loc (@nil thread) [t] end.
  match goal with |- steps _ _ (St [_; ?t] _) _ => eapply steps_front; [apply (s_local C join_in_loop [] [t]); apply (l_do _ _ _ _ VNone)|] end.
  cbn [app].
  match goal with |- steps _ _ (St [_; ?t] _) _ => loc (@nil thread) [t]; loc (@nil thread) [t]; loc (@nil thread) [t]; loc (@nil thread) [t] end.
  match goal with |- steps _ _ (St [?t; _] _) _ => loc [t] (@nil thread) end.
  apply steps_refl.
Qed.

Lemma stuck_deadlock st m t l j : threads st = [m; t] -> finished t \/ ~ finished t ->
  cur t = Acquire l -> In (l (sto t)) (own m) -> cur m = Join j -> tid t = j (sto m) ->
  deadlock st.
Proof.
  intros E _ A L J T. exists [m; t]. split; [discriminate|]. split; [rewrite E; apply incl_refl|].
  intros u [<-|[<-|[]]].
  - exists t. split; [right; left; reflexivity|]. right. exists j. repeat split; auto. intros (F & _). congruence.
  - exists m. split; [left; reflexivity|]. left. exists l. auto.
Qed.
Lemma two_split (m t u : thread) A B : A ++ u :: B = [m; t] -> (A = [] /\ u = m /\ B = [t]) \/ (A = [m] /\ u = t /\ B = []).
Proof.
  destruct A as [|a [|b A]]; cbn; intros E.
  - inversion E; subst. auto.
  - inversion E; subst. auto.
  - inversion E. destruct A; discriminate.
Qed.
Lemma stuck_no_step C P st m t l j : threads st = [m; t] ->
  cur t = Acquire l -> In (l (sto t)) (own m) -> cur m = Join j -> tid t = j (sto m) ->
  ~ exists st', step C P st st'.
Proof.
  intros E A L J T (st' & S).
  assert (RU : running st (j (sto m))).
  { exists t. rewrite E. split; [right; left; reflexivity|]. split; [exact T|]. intros (F & _). congruence. }
  assert (LO : locked st (l (sto t))) by (exists m; rewrite E; split; [left; reflexivity|exact L]).
  inversion S; subst; cbn [threads] in E; apply two_split in E as [(-> & <- & ->)|(-> & <- & ->)]; cbn in *;
    try congruence; subst; try discriminate;
    try match goal with h : local _ (_, _, _) _ |- _ => inversion h; subst; discriminate end;
    try (inversion A; inversion J; subst; contradiction).
Qed.
Lemma start_join_is_stuck : deadlock start_join_stuck /\ ~ exists st', step nagini start_join start_join_stuck st'.
Proof.
  split; [eapply stuck_deadlock|eapply stuck_no_step]; try reflexivity; try (left; reflexivity).
  right. intros (F & _). discriminate F.
Qed.
Lemma join_in_loop_is_stuck C : deadlock join_in_loop_stuck /\ ~ exists st', step C join_in_loop join_in_loop_stuck st'.
Proof.
  split; [eapply stuck_deadlock|eapply stuck_no_step]; try reflexivity; try (left; reflexivity).
  right. intros (F & _). discriminate F.
Qed.

(** * Theorems *)

(** Full claim: no reachable state of a verified program has a deadlock, and as long as a
    thread is not finished some thread can make a step. *)

(** Proved for programs that do not join threads. *)
Theorem C49_no_deadlock_partial (P : prog) st0 st :
  verified nagini P -> (forall m me, nth_error P m = Some me -> join_free (m_body me)) ->
  initial P st0 -> steps nagini P st0 st ->
  ~ deadlock st.
Proof. exact (no_deadlock_join_free P st0 st). Qed.
Print Assumptions C49_no_deadlock_partial.

(** Every thread that is not finished can make a step or waits for one that is not finished, and
    some thread can make a step. *)
Theorem C49_progress_partial (P : prog) st0 st :
  verified nagini P -> (forall m me, nth_error P m = Some me -> join_free (m_body me)) ->
  initial P st0 -> steps nagini P st0 st ->
  (forall t, In t (threads st) -> ~ finished t ->
     moves nagini P st t \/ exists t', In t' (threads st) /\ ~ finished t' /\ waits_for t t') /\
  ((exists t, In t (threads st) /\ ~ finished t) -> exists st', step nagini P st st').
Proof. exact (progress_join_free P st0 st). Qed.
Print Assumptions C49_progress_partial.

(** A thread that is about to take a lock holds only locks of lower levels, also those held by
    the callers of the current method and around the current loops. *)
Theorem C49_lock_order_partial (P : prog) st0 st t l :
  verified nagini P -> (forall m me, nth_error P m = Some me -> join_free (m_body me)) ->
  initial P st0 -> steps nagini P st0 st ->
  In t (threads st) -> cur t = Acquire l ->
  forall h, In h (own t) -> Level h < Level (l (sto t)).
Proof. exact (lock_order_join_free P st0 st t l). Qed.
Print Assumptions C49_lock_order_partial.

Example two_workers_case : verified nagini two_workers /\
  (forall m me, nth_error two_workers m = Some me -> join_free (m_body me)) /\
  initial two_workers (start_state main_worker).
Proof.
  split; [apply two_workers_verified|]. split.
  - intros m me E. destruct m as [|[|[|m]]]; cbn in E; inversion E; subst; cbn; auto 20.
  - exists 1%nat, main_worker, [], 0. repeat split; auto; constructor.
Qed.

(** With joins the claim is false: the wait levels required by the started method are not
    checked when the thread is started. *)
Theorem C49_start_join_refuted : exists P st0 st,
  verified nagini P /\ initial P st0 /\ steps nagini P st0 st /\ deadlock st /\ ~ exists st', step nagini P st st'.
Proof.
  exists start_join, (start_state main_join), start_join_stuck.
  split; [exact start_join_verified|]. split; [exists 1%nat, main_join, [], 0; repeat split; auto; constructor|].
  split; [exact start_join_runs|]. exact start_join_is_stuck.
Qed.
Print Assumptions C49_start_join_refuted.

(** It is also false if they are checked, because a join inside a loop is compared with the
    residue of the method only: locks held around the loop are forgotten. *)
Theorem C49_join_in_loop_refuted (C : config) : join_uses_loop_residue C = false -> exists P st0 st,
  verified C P /\ initial P st0 /\ steps C P st0 st /\ deadlock st /\ ~ exists st', step C P st st'.
Proof.
  intros JC. exists join_in_loop, (start_state main_loop), join_in_loop_stuck.
  split; [exact (join_in_loop_verified C JC)|]. split; [exists 1%nat, main_loop, [], 0; repeat split; auto; constructor|].
  split; [exact (join_in_loop_runs C)|]. exact (join_in_loop_is_stuck C).
Qed.
Print Assumptions C49_join_in_loop_refuted.

(** With both checks in place the claim would hold for all programs. *)
Theorem C49_with_both_checks (P : prog) (C : config) st0 st :
  start_checks_waits C = true -> join_uses_loop_residue C = true ->
  verified C P -> initial P st0 -> steps C P st0 st ->
  ~ deadlock st /\ ((exists t, In t (threads st) /\ ~ finished t) -> exists st', step C P st st').
Proof. exact (no_deadlock_checked P C st0 st). Qed.
Print Assumptions C49_with_both_checks.

(** Starts a worker before taking the locks, and joins it afterwards. *)
Definition main_checked : meth := {|
  m_pre := none; m_post := none;
  m_body :=
    Seq (NewLock (fun _ => None) (fun _ => None) push)                       (* [l] *)
    (Seq (Start 0 (fun s => [VRef (var 0 s)]) push)                          (* [t; l] *)
    (Seq (Acquire (var 1))
    (Seq (Release (var 1))
         (Join (var 0)))));
  m_ret := fun _ => VNone |}.
Example checked_case : let C := {| start_checks_waits := true; join_uses_loop_residue := true |} in
  verified C [taker; main_checked] /\ initial [taker; main_checked] (start_state main_checked).
Proof.
  split; [|exists 1%nat, main_checked, [], 0; repeat split; auto; constructor].
  intros m me E. destruct m as [|[|m]]; cbn in E; inversion E; subst; [apply taker_verified| |destruct m; discriminate].
  intros a r _ _. cbn [m_body main_checked check].
  split; [exact Logic.I|]. exists []. split; [reflexivity|]. split; [constructor|]. intros v c1 I1 PU W. norm.
  destruct v as [| |l]; try contradiction. inversion W as [|? ? W1 _]; subst. clear W PU.
  assert (R1 : r < Level l) by (lk; lra).
  cbn [check nth_error]. split; [reflexivity|]. split; [exact Logic.I|]. exists []. split; [reflexivity|]. split.
  { cbn. fin. }
  intros t (_ & TL).
  split; [exact Logic.I|]. exists []. split; [reflexivity|]. split; [cbn; fin|]. intros ? c2 I2 _ _. norm. cbn.
  split; [exact Logic.I|]. exists []. split; [reflexivity|]. split; [constructor|]. intros ? c4 _ _ _. norm.
  split; [split; [constructor|exact TL]|]. split; [exact Logic.I|]. exists []. repeat split; auto; constructor.
Qed.
