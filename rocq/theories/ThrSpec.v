(** What users expect of threads. *)
From Coq Require Import List Bool Arith ZArith QArith.
From Verif Require Import ThrModel.
Import ListNotations.
Local Open Scope nat_scope.

(** ** Executions *)

(** The program begins with the main thread, which may hold permissions to what the module
    defines, but there are no other threads. *)
Definition initial (st : state) : Prop :=
  exists e, table st = [e] /\ e_status e = Running /\
    forall r, (0 <= e_perm e r)%Q /\ (e_perm e r <= 1)%Q /\
              (thread_resource r = true -> (e_perm e r == 0)%Q).

Definition running (st : state) (i : nat) : Prop :=
  i < length (table st) /\ e_status (thread st i) = Running.

(** The permission a thread holds. *)
Definition holds (st : state) (i : nat) (r : res) : Q := e_perm (thread st i) r.

(** Two threads never hold more than one whole permission to the same thing, so none can
    write what the other can read. *)
Definition race_free (st : state) : Prop :=
  forall i j r, running st i -> running st j -> i <> j -> (holds st i r + holds st j r <= 1)%Q.

(** All that creating, starting or joining a thread makes the verifier assume is true. *)
Definition assumes_truth (l : label) : Prop :=
  match l with
  | LOther | LFail _ => True
  | LCreate _ _ _ _ ok | LStart _ _ _ ok | LJoin _ _ _ ok => ok = true
  end.

(** ** Conditions on programs and executions *)

(** The lists of methods given to start and join name no method twice. *)
Definition distinct_options (l : label) : Prop :=
  match l with
  | LStart _ _ opts _ | LJoin _ _ opts _ => NoDup opts
  | _ => True
  end.

(** The arguments given to a thread have the declared types. *)
Definition typed_args (sub : nat -> nat -> bool) (types : list ty) (args : list val) : Prop :=
  Forall2 (fun v t => has_type sub v t = true) args types.

Definition typed_label (sub : nat -> nat -> bool) (P : nat -> method) (l : label) : Prop :=
  match l with
  | LCreate _ _ m args _ => typed_args sub (m_types (P m)) args
  | _ => True
  end.

(** No thread ends with an exception. *)
Definition no_exception (l : label) : Prop :=
  match l with LFail _ => False | _ => True end.

(** Postconditions speak about fields, containers and predicates only. *)
Definition shareable (a : atom) : Prop :=
  match a with
  | Acc (AGlobal _) _ | Acc (AMayStart _) _ | Acc (AThreadPost _) _ => False
  | _ => True
  end.

(** Viper accepts an assertion only if it has permission to the fields that it reads. *)
Fixpoint reads (e : exp) : list (nat * nat) :=
  match e with
  | XField i f => [(i, f)]
  | XAdd a b => reads a ++ reads b
  | _ => []
  end.

Definition self_framing (l : list atom) : Prop :=
  forall a b i f, In (Same a b) l -> In (i, f) (reads a ++ reads b) ->
  exists q, In (Acc (AField i f) q) l /\ (0 < q)%Q.

Definition well_formed (P : nat -> method) : Prop :=
  forall m, Forall shareable (m_post (P m)) /\ self_framing (m_post (P m)).

(** ** Python's thread constructor *)

Definition params : list kw := [KGroup; KTarget; KName; KArgs; KKwargs; KDaemon].

(** Which argument (numbered from left to right, positional ones first) a parameter gets. *)
Definition passed (nargs : nat) (keywords : list kw) (k : kw) (pos : nat) : Prop :=
  (nth_error params pos = Some k /\ pos < nargs) \/
  (nargs <= pos /\ nth_error keywords (pos - nargs) = Some k).

(** Calls that Python accepts: no parameter is given twice. *)
Definition python_call (nargs : nat) (keywords : list kw) : Prop :=
  nargs <= length params /\ NoDup (firstn nargs params ++ keywords).

(** How many arguments do not have the declared type. *)
Definition ill_typed (sub : nat -> nat -> bool) (args : list val) (types : list ty) : nat :=
  length (filter (fun vt => negb (has_type sub (fst vt) (snd vt))) (combine args types)).
