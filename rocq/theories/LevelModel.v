(** Levels of locks: what the contract of Lock.__init__ demands and promises
    (/repo/src/nagini_contracts/lock.py 34-57), and which other facts about levels are assumed
    (/repo/src/nagini_translation/translators/obligation/waitlevel.py, see WaitModel.v).
    Level is an uninterpreted function to Perm, the rationals
    (/repo/src/nagini_translation/resources/lock.sil 8).

    Simplification: a wait level is a symbol; a new one is introduced when locks are acquired
    or a thread is started. *)
From Coq Require Import List Bool Arith QArith.
Import ListNotations.
Local Open Scope nat_scope.

(** Level(k), or the value of WaitLevel() at some point. *)
Inductive term := Level (k : nat) | Wait (w : nat).

(** a < b, a <= b *)
Inductive fact := Lt (a b : term) | Le (a b : term).

(** What is known, and how many locks and wait levels there are. *)
Record state := St { facts : list fact; n_locks : nat; n_waits : nat }.

(** Lock.__init__(self, _, above, below), wait level w.  lock.py 51-54 *)
Definition demanded (w : nat) (above below : option nat) : list fact :=
  match above, below with
  | None, Some b => [Lt (Wait w) (Level b)]
  | Some a, Some b => [Lt (Level a) (Level b)]
  | _, None => []
  end.

(** lock.py 56-58 *)
Definition promised (w k : nat) (above below : option nat) : list fact :=
  match above with
  | None => [Lt (Wait w) (Level k)]
  | Some a => [Lt (Level a) (Level k)]
  end ++
  match below with
  | None => []
  | Some b => [Lt (Level k) (Level b)]
  end.

Definition holds (v : term -> Q) (f : fact) : Prop :=
  match f with Lt a b => (v a < v b)%Q | Le a b => (v a <= v b)%Q end.

(** The verifier can prove f. *)
Definition proves (known : list fact) (f : fact) : Prop :=
  forall v : term -> Q, Forall (holds v) known -> holds v f.

Definition exists_in (st : state) (o : option nat) : Prop :=
  match o with None => True | Some k => k < n_locks st end.

(** Direct: C(obj, above, below) for a class C without a constructor of its own.  Super: a
    call super().__init__(obj, above, below) in a constructor, for the new object k. *)
Inductive label := Direct | Super (k : nat) | Other.

Inductive step : state -> label -> state -> Prop :=
  | l_direct w above below st :
      w < n_waits st -> exists_in st above -> exists_in st below ->
      Forall (proves (facts st)) (demanded w above below) ->
      step st Direct (St (promised w (n_locks st) above below ++ facts st) (S (n_locks st)) (n_waits st))
  (* an object whose class has its own constructor *)
  | l_create st : step st Other (St (facts st) (S (n_locks st)) (n_waits st))
  | l_super w k above below st :
      w < n_waits st -> k < n_locks st -> exists_in st above -> exists_in st below ->
      Forall (proves (facts st)) (demanded w above below) ->
      step st (Super k) (St (promised w k above below ++ facts st) (n_locks st) (n_waits st))
  (* the wait level is at least the levels of the locks held and the previous wait level *)
  | l_acquire (ls ws : list nat) st :
      Forall (fun k => k < n_locks st) ls -> Forall (fun w => w < n_waits st) ws ->
      step st Other
        (St (map (fun k => Le (Level k) (Wait (n_waits st))) ls ++
             map (fun w => Le (Wait w) (Wait (n_waits st))) ws ++ facts st) (n_locks st) (S (n_waits st)))
  (* a new thread: its precondition may say that its wait level is below some locks *)
  | l_thread (ls : list nat) st :
      Forall (fun k => k < n_locks st) ls ->
      step st Other
        (St (map (fun k => Lt (Wait (n_waits st)) (Level k)) ls ++ facts st) (n_locks st) (S (n_waits st))).

Inductive steps : state -> list label -> state -> Prop :=
  | steps_nil st : steps st [] st
  | steps_snoc st1 tr st2 l st3 : steps st1 tr st2 -> step st2 l st3 -> steps st1 (tr ++ [l]) st3.

(** Nothing is known, there is the wait level of the main program. *)
Definition start : state := St [] 0 1.
