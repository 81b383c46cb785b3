(** C59: locks protect their invariants; C58: classes called Lock. *)
From Coq Require Import List Bool Arith ZArith QArith Lqa Lia.
From Verif Require Import LockModel LockSpec LockProofs LockProofs2 LockProofs3 LockProofs4 LockRun.
Import ListNotations.
Local Open Scope nat_scope.

(** The reader-writer lock of /repo/tests: class 0 is Lock, class 1
    Acc(c.rds) and c.rds >= 0 and Implies(c.rds == 0, Acc(c.value)) for c = self.get_locked(). *)
Definition sub_ex (c d : nat) : bool := (c =? d) || (d =? 0).
Definition rds : exp := EGet ELocked 0.
Definition rw_inv : asn :=
  AAnd (AAcc ELocked 0 1) (AAnd (AB (TLe (ELit 0) rds)) (AImp (TEq rds (ELit 0)) (AAcc ELocked 1 1))).
Definition F_ex : family := [(0, AB (TEq (ELit 1) (ELit 1))); (1, rw_inv)].

Lemma F_ex_framed : framed F_ex.
Proof.
  intros D a [E|[E|[]]] obj h; inversion E; subst; [reflexivity|].
  cbn. rewrite loc_eqb_refl. cbn. destruct (_ <=? _)%Z; cbn; [|reflexivity]. destruct (_ =? _)%Z; reflexivity.
Qed.

(** ** C59: in every execution, reads give the value that the verifier believes, what it
    assumes when a lock is acquired (or an invariant unfolded) is true, and only locks that
    are taken are released. *)
Theorem C59_expected :
  forall (sub : nat -> nat -> bool) (F : family) (tr : list label) (st : state),
  framed F -> steps sub F start tr st -> Forall as_expected tr.
Proof. intros sub F tr st FR S. exact (proj2 (run_expected sub F FR tr st S)). Qed.
Print Assumptions C59_expected.

(** An object, its lock; a second activation acquires it, changes the object, releases it;
    the first one acquires it and reads; then it has to release it again. *)
Definition before_ex : list cmd :=
  [KNew 0; KWrite 0 (0%Z, 0) 0%Z; KWrite 0 (0%Z, 1) 5%Z; KLock 0 1 0%Z false; KCall; KAcquire 1 0;
   KRead 1 (0%Z, 1); KWrite 1 (0%Z, 1) 7%Z].

Example C59_ex : exists st,
  steps sub_ex F_ex start
    [LOther; LWrite 0 (0%Z, 0); LWrite 0 (0%Z, 1); LAssume 0 0 true; LOther; LAssume 1 0 true; LRead 1 (0%Z, 1) 5%Z 5%Z;
     LWrite 1 (0%Z, 1); LRelease 1 0 true; LAssume 0 0 true; LRead 0 (0%Z, 1) 7%Z 7%Z] st.
Proof.
  apply (run_trace sub_ex F_ex F_ex_framed (before_ex ++ [KRelease 1 0; KAcquire 0 0; KRead 0 (0%Z, 1)])).
  vm_compute. reflexivity.
Qed.

(** ** C59: no two activations can access a field at the same time if one of them writes. *)
Theorem C59_no_race :
  forall (sub : nat -> nat -> bool) (F : family) (tr : list label) (st : state),
  framed F -> steps sub F start tr st -> ~ race sub F st.
Proof. intros sub F tr st FR. exact (no_race sub F FR tr st). Qed.
Print Assumptions C59_no_race.

Example C59_no_race_ex : exists tr st, steps sub_ex F_ex start tr st /\ can sub_ex F_ex st (LWrite 1 (0%Z, 1)).
Proof.
  apply (run_can sub_ex F_ex F_ex_framed before_ex (KWrite 1 (0%Z, 1) 9%Z)). vm_compute. reflexivity.
Qed.

(** ** C59: two activations are never both able to release a lock. *)
Theorem C59_exclusive :
  forall (sub : nat -> nat -> bool) (F : family) (tr : list label) (st : state) (i j k : nat) (t t' : bool),
  framed F -> steps sub F start tr st -> can sub F st (LRelease i k t) -> can sub F st (LRelease j k t') -> i = j.
Proof. intros sub F tr st i j k t t' FR. exact (exclusive sub F FR tr st i j k t t'). Qed.
Print Assumptions C59_exclusive.

Example C59_exclusive_ex : exists tr st, steps sub_ex F_ex start tr st /\ can sub_ex F_ex st (LRelease 1 0 true).
Proof.
  apply (run_can sub_ex F_ex F_ex_framed before_ex (KRelease 1 0)). vm_compute. reflexivity.
Qed.

(** ** C59: while a lock is free, nobody writes the fields its invariant has, and nobody reads
    those it has full permission to. *)
Theorem C59_protected :
  forall (sub : nat -> nat -> bool) (F : family) (tr : list label) (st : state) (k : nat) (q : Q) (l : loc),
  framed F -> steps sub F start tr st -> free st k -> protects sub F st k q l ->
  (0 < q -> forall i, ~ can sub F st (LWrite i l))%Q /\
  (1 <= q -> forall i known found, ~ can sub F st (LRead i l known found))%Q.
Proof. intros sub F tr st k q l FR. exact (protected sub F FR tr st k q l). Qed.
Print Assumptions C59_protected.

(** Before the second activation acquires the lock. *)
Example C59_protected_ex : exists tr st,
  steps sub_ex F_ex start tr st /\ free st 0 /\ protects sub_ex F_ex st 0 1 (0%Z, 1) /\ s_heap st (0%Z, 1) = 5%Z.
Proof.
  destruct (run_test sub_ex F_ex F_ex_framed [KNew 0; KWrite 0 (0%Z, 0) 0%Z; KWrite 0 (0%Z, 1) 5%Z; KLock 0 1 0%Z false; KCall]
    (fun st => (0 <? length (s_locks st)) && k_ready (lock_of st 0) && negb (k_taken (lock_of st 0)) &&
       Qeq_bool 1 (amounts (k_obj (lock_of st 0)) (s_heap st) (body sub_ex F_ex (k_class (lock_of st 0))) (0%Z, 1)) &&
       (Z.eqb (s_heap st (0%Z, 1)) 5%Z))) as (tr & st & S & T); [vm_compute; reflexivity|].
  repeat match type of T with (_ && _)%bool = true => let A := fresh "A" in apply andb_true_iff in T as (T & A) end.
  exists tr, st. split; [exact S|]. split; [|split].
  - split; [now apply Nat.ltb_lt|]. split; [assumption|now apply negb_true_iff].
  - now apply Qeq_bool_iff.
  - now apply Z.eqb_eq.
Qed.

(** The invariant may be taken apart only by the activation that holds the lock: the second
    activation of the execution above cannot release before it acquires (it is not stuck for
    other reasons: the lock exists and the invariant holds). *)
Example C59_no_release_ex :
  option_map fst (run sub_ex F_ex start
    [KNew 0; KWrite 0 (0%Z, 0) 0%Z; KWrite 0 (0%Z, 1) 5%Z; KLock 0 1 0%Z false; KCall; KRelease 1 0]) = None.
Proof. vm_compute. reflexivity. Qed.

(** ** C58, for locks: what is assumed about new objects whose class is called Lock. *)
Theorem C58_no_lock :
  forall (chain : list lclass) (args : list Z),
  (forall c, In c chain -> lc_is_lock c = false) -> new_lock_fact chain args = NoFact.
Proof.
  intros chain args H. unfold new_lock_fact. destruct (find lc_is_lock chain) as [c|] eqn:E; [|reflexivity].
  apply find_some in E as (I & E). rewrite (H c I) in E. discriminate.
Qed.
Print Assumptions C58_no_lock.

Example C58_no_lock_ex : new_lock_fact [LC false (Some (Some 3%Z)) true; LC false None false] [4%Z] = NoFact.
Proof. reflexivity. Qed.

(** The class is recognised by its name alone: a class of the user called Lock whose pure
    method get_locked returns 3 is assumed to return 4 after Lock(4). *)
Theorem C58_lock_name_refuted :
  ~ (forall (chain : list lclass) (args : list Z) (d v : Z), new_lock_fact chain args = Fact (Some d) v -> d = v).
Proof.
  intros H. discriminate (H [LC true (Some (Some 3%Z)) true] [4%Z] 3%Z 4%Z eq_refl).
Qed.
Print Assumptions C58_lock_name_refuted.

(** A class of the user that is called Lock and has no get_locked cannot be created at all. *)
Theorem C58_lock_crash_refuted :
  ~ (forall (chain : list lclass) (args : list Z), new_lock_fact chain args <> Crash).
Proof. intros H. apply (H [LC true None false] []). reflexivity. Qed.
Print Assumptions C58_lock_crash_refuted.
