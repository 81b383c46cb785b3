(** What running a program with threads and locks means, and what a deadlock is.
    The levels of locks and threads are ghost values: nothing that is executed tests them.  A
    new lock gets a level that its constructor promises, a new thread one that the start of a
    thread may assume; that such a level exists is part of the theorems. *)
From Coq Require Import NArith QArith List Permutation Bool.
From Verif Require Import WaitModel.
Import ListNotations.
Open Scope Q_scope.

(** What remains to be done after the current statement. *)
Inductive kont :=
| KSeq (c : cmd)
| KLoop (b : store -> bool) (assigned : list nat) (inv : assn) (c : cmd)
| KRet (me : meth) (a : list val) (ret : val -> store -> store) (s : store).

(** A thread: its object, the current statement, the store, the continuation and the locks it
    has to release. *)
Record thread := Thr { tid : ref; cur : cmd; sto : store; kon : list kont; own : list ref }.
(** The program state: the threads and the next unused object identity. *)
Record state := St { threads : list thread; next : N }.

Definition finished (t : thread) : Prop := cur t = Skip /\ kon t = [].
Definition locked (st : state) (l : ref) : Prop := exists t, In t (threads st) /\ In l (own t).
Definition running (st : state) (r : ref) : Prop :=
  exists t, In t (threads st) /\ tid t = r /\ ~ finished t.

(** Steps of one thread that do not involve others. *)
Inductive local (P : prog) : cmd * store * list kont -> cmd * store * list kont -> Prop :=
| l_do f s K v : local P (Do f, s, K) (Skip, f s v, K)
| l_seq c1 c2 s K : local P (Seq c1 c2, s, K) (c1, s, KSeq c2 :: K)
| l_pop c s K : local P (Skip, s, KSeq c :: K) (c, s, K)
| l_if b c1 c2 s K : local P (If b c1 c2, s, K) (if b s then c1 else c2, s, K)
| l_enter b va inv c s K : b s = true -> local P (While b va inv c, s, K) (c, s, KLoop b va inv c :: K)
| l_exit b va inv c s K : b s = false -> local P (While b va inv c, s, K) (Skip, s, K)
| l_again b va inv c s K : local P (Skip, s, KLoop b va inv c :: K) (While b va inv c, s, K)
| l_call m args ret s K me : nth_error P m = Some me ->
    local P (Call m args ret, s, K) (m_body me, args s, KRet me (args s) ret s :: K)
| l_ret me a ret s0 s K : local P (Skip, s, KRet me a ret s0 :: K) (Skip, ret (m_ret me s) s0, K).

(** What the wait level of a thread is made of: the locks it has to release and, if starting a
    thread compares the precondition with the level of the thread, the thread itself. *)
Definition bounds (C : config) (t : ref) (o : list ref) : list ref :=
  if start_checks_waits C then t :: o else o.
(** The level of a new lock: above [above] or everything the thread holds, below [below]. *)
Definition new_level (above below : option ref) (held : list ref) (q : Q) : Prop :=
  match above with Some a => Level a < q | None => Forall (fun h => Level h < q) held end /\
  match below with Some b => q < Level b | None => True end.

Inductive step (C : config) (P : prog) : state -> state -> Prop :=
| s_local A B t c s K c' s' K' o n :
    local P (c, s, K) (c', s', K') ->
    step C P (St (A ++ Thr t c s K o :: B) n) (St (A ++ Thr t c' s' K' o :: B) n)
| s_acquire A B t l s K o n :
    ~ locked (St (A ++ Thr t (Acquire l) s K o :: B) n) (l s) ->
    step C P (St (A ++ Thr t (Acquire l) s K o :: B) n) (St (A ++ Thr t Skip s K (l s :: o) :: B) n)
| s_release A B t l s K o o' n :
    Permutation o (l s :: o') ->
    step C P (St (A ++ Thr t (Release l) s K o :: B) n) (St (A ++ Thr t Skip s K o' :: B) n)
| s_new A B t above below ret s K o n q :
    new_level (above s) (below s) (bounds C t o) q ->
    step C P (St (A ++ Thr t (NewLock above below ret) s K o :: B) n)
         (St (A ++ Thr t Skip (ret (VRef (n, q)) s) K o :: B) (n + 1))
| s_start A B t m args ret s K o o' n q me :
    nth_error P m = Some me ->
    (* the obligations of the precondition go to the new thread *)
    Permutation o (locks (m_pre me) (args s) ++ o') ->
    Forall (fun h => Level h < q) (bounds C t o') ->
    (if start_checks_waits C then Forall (fun x => q < Level x) (waits (m_pre me) (args s)) else True) ->
    step C P (St (A ++ Thr t (Start m args ret) s K o :: B) n)
         (St ((A ++ Thr t Skip (ret (VRef (n, q)) s) K o' :: B)
              ++ [Thr (n, q) (m_body me) (args s) [] (locks (m_pre me) (args s))]) (n + 1))
| s_join A B t j s K o n :
    ~ running (St (A ++ Thr t (Join j) s K o :: B) n) (j s) ->
    step C P (St (A ++ Thr t (Join j) s K o :: B) n) (St (A ++ Thr t Skip s K o :: B) n).

Inductive steps (C : config) (P : prog) : state -> state -> Prop :=
| steps_refl st : steps C P st st
| steps_step st st' st'' : steps C P st st' -> step C P st' st'' -> steps C P st st''.

(** The program starts with one thread that runs a method whose precondition holds and demands
    no obligations, and ends without any. *)
Definition initial (P : prog) (st : state) : Prop :=
  exists m me a q, nth_error P m = Some me /\ pure (m_pre me) a /\ locks (m_pre me) a = [] /\
    (forall s, locks (m_post me) s = []) /\ Forall (fun x => q < Level x) (waits (m_pre me) a) /\
    st = St [Thr (0%N, q) (m_body me) a [] []] 1.

(** The statement at which a thread waits, and for whom. *)
Definition waits_for (t t' : thread) : Prop :=
  (exists l, cur t = Acquire l /\ In (l (sto t)) (own t')) \/
  (exists j, cur t = Join j /\ tid t' = j (sto t) /\ ~ finished t').
(** A deadlock: a group of threads each of which waits for a member of the group. *)
Definition deadlock (st : state) : Prop :=
  exists D, D <> [] /\ incl D (threads st) /\ forall t, In t D -> exists t', In t' D /\ waits_for t t'.

(** Thread [t] can make the next step. *)
Definition moves (C : config) (P : prog) (st : state) (t : thread) : Prop :=
  exists A B t' new n', threads st = A ++ t :: B /\ step C P st (St ((A ++ t' :: B) ++ new) n').

(** The statement contains no join. *)
Fixpoint join_free (c : cmd) : Prop :=
  match c with
  | Seq c1 c2 | If _ c1 c2 => join_free c1 /\ join_free c2
  | While _ _ _ c1 => join_free c1
  | Join _ => False
  | _ => True
  end.
