(** Locks: creating, acquiring and releasing them.

    Sources:
    - /repo/src/nagini_contracts/lock.py (contracts of Lock.__init__, acquire, release);
    - under /repo/src/nagini_translation: translators/call.py: translate_constructor_call
      (304-322), _translate_method_call (662-702); translators/predicate.py
      translate_predicate_family (104-190) for the predicate invariant of Lock (172: without
      an abstract rest); translators/obligation/types/must_release.py,
      obligation/inexhale.py: _construct_inhale, _construct_bounded_exhale,
      _construct_unbounded_exhale, construct_obligation_bound.

    Executions are over activations of methods (in all threads); a call, a return, the start
    and the join of a thread hand permissions from one activation to another.  Every
    activation has a view: the values that the verifier believes the fields to have.  It is
    meaningful for fields to which permission is held; for the others the verifier considers
    all values, among them the actual one.

    Left out: predicates, quantified and abstract read permissions in invariants; measures of
    obligations; the wait level itself (WaitModel.v), apart from the fact that nothing is
    known about the level of a lock before Lock.__init__ has run, so that acquire's
    precondition WaitLevel() < Level(self) cannot be established. *)
From Coq Require Import List Bool Arith ZArith QArith.
Import ListNotations.
Local Open Scope nat_scope.

(** ** Invariants *)

(** Fields of objects; objects and other values are integers. *)
Definition loc := (Z * nat)%type.
Definition heap := loc -> Z.

Definition loc_eqb (a b : loc) : bool := Z.eqb (fst a) (fst b) && (snd a =? snd b).

(** Expressions over the locked object, self.get_locked(). *)
Inductive exp := ELocked | ELit (z : Z) | EGet (e : exp) (f : nat) | EAdd (a b : exp).

Inductive test := TEq (a b : exp) | TLe (a b : exp) | TNot (t : test) | TAnd (s t : test).

(** The body of an invariant: Acc(e.f, q), a test, Implies(t, ...), conjunctions. *)
Inductive asn := AAcc (e : exp) (f : nat) (q : Q) | AB (t : test) | AImp (t : test) (a : asn) | AAnd (a b : asn).

Section Asn.
  Variable obj : Z.   (* self.get_locked() *)
  Variable h : heap.

  Fixpoint eval (e : exp) : Z :=
    match e with
    | ELocked => obj
    | ELit z => z
    | EGet e f => h (eval e, f)
    | EAdd a b => (eval a + eval b)%Z
    end.

  Fixpoint reads (e : exp) : list loc :=
    match e with
    | ELocked | ELit _ => []
    | EGet e f => reads e ++ [(eval e, f)]
    | EAdd a b => reads a ++ reads b
    end.

  Fixpoint istrue (t : test) : bool :=
    match t with
    | TEq a b => Z.eqb (eval a) (eval b)
    | TLe a b => Z.leb (eval a) (eval b)
    | TNot t => negb (istrue t)
    | TAnd s t => istrue s && istrue t
    end.

  (** The second operand of `and` is evaluated only if the first is true. *)
  Fixpoint treads (t : test) : list loc :=
    match t with
    | TEq a b | TLe a b => reads a ++ reads b
    | TNot t => treads t
    | TAnd s t => treads s ++ (if istrue s then treads t else [])
    end.

  (** The permissions in an assertion. *)
  Fixpoint amounts (a : asn) (l : loc) : Q :=
    match a with
    | AAcc e f q => if loc_eqb (eval e, f) l then q else 0%Q
    | AB _ => 0%Q
    | AImp t a => if istrue t then amounts a l else 0%Q
    | AAnd a b => (amounts a l + amounts b l)%Q
    end.

  Fixpoint holds (a : asn) : bool :=
    match a with
    | AAcc _ _ _ => true
    | AB t => istrue t
    | AImp t a => negb (istrue t) || holds a
    | AAnd a b => holds a && holds b
    end.

  Definition covered (p : loc -> Q) (l : list loc) : bool := forallb (fun x => negb (Qle_bool (p x) 0)) l.

  (** Viper's check that an assertion is well-defined if permissions p are held: fields are
      read only with permission, permissions are not negative.  Once a test has failed,
      nothing more is checked. *)
  Fixpoint welldef (p : loc -> Q) (a : asn) : bool :=
    match a with
    | AAcc e f q => covered p (reads e) && Qle_bool 0 q
    | AB t => covered p (treads t)
    | AImp t a => covered p (treads t) && (negb (istrue t) || welldef p a)
    | AAnd a b => welldef p a && (negb (holds a) || welldef (fun l => (p l + amounts a l)%Q) b)
    end.
End Asn.

(** The predicate family of Lock.invariant (predicate.py 113-171): every class that defines or
    overrides it, with its body. *)
Definition family := list (nat * asn).

(** predicate.py 160-167: the frame_check methods verify, for every lock and heap. *)
Definition framed (F : family) : Prop :=
  forall D a, In (D, a) F -> forall obj h, welldef obj h (fun _ => 0%Q) a = true.

(** predicate.py 149-159, 187: the body for a lock of class C; [sub C D]: C is D or a
    subclass of it. *)
Fixpoint body (sub : nat -> nat -> bool) (F : family) (C : nat) : asn :=
  match F with
  | [] => AB (TEq (ELit 0) (ELit 0))
  | (D, a) :: F' => if sub C D then AAnd a (body sub F' C) else body sub F' C
  end.

(** ** States *)

(** Permissions: to fields, to the (folded) invariant of a lock, and MustRelease, bounded and
    unbounded. *)
Inductive res := RF (l : loc) | RInv (k : nat) | RRelB (k : nat) | RRelU (k : nat).

Definition res_eqb (a b : res) : bool :=
  match a, b with
  | RF l, RF l' => loc_eqb l l'
  | RInv k, RInv k' | RRelB k, RRelB k' | RRelU k, RRelU k' => k =? k'
  | _, _ => false
  end.

Definition perms := res -> Q.
Definition plus (p : perms) (r : res) (q : Q) : perms := fun r' => if res_eqb r r' then (p r' + q)%Q else p r'.
Definition minus (p : perms) (r : res) (q : Q) : perms := fun r' => if res_eqb r r' then (p r' - q)%Q else p r'.

(** A lock object: its class, the locked object, whether Lock.__init__ has run, and whether
    it is taken. *)
Record lock := Lk { k_class : nat; k_obj : Z; k_ready : bool; k_taken : bool }.

(** An activation: permissions, view, and the views that are remembered inside of folded
    invariants. *)
Record act := Act { a_perm : perms; a_view : heap; a_snap : nat -> heap }.

Record state := St { s_heap : heap; s_next : Z; s_locks : list lock; s_acts : list act }.

Definition no_act : act := Act (fun _ => 0%Q) (fun _ => 0%Z) (fun _ _ => 0%Z).
Definition act_of (st : state) (i : nat) : act := nth i (s_acts st) no_act.
Definition lock_of (st : state) (k : nat) : lock := nth k (s_locks st) (Lk 0 0 false false).

Fixpoint update {A} (l : list A) (i : nat) (a : A) : list A :=
  match l, i with
  | [], _ => []
  | _ :: l', 0 => a :: l'
  | x :: l', S i' => x :: update l' i' a
  end.

Definition set_act (st : state) (i : nat) (a : act) : state :=
  St (s_heap st) (s_next st) (s_locks st) (update (s_acts st) i a).

Definition set_lock (st : state) (k : nat) (l : lock) : state :=
  St (s_heap st) (s_next st) (update (s_locks st) k l) (s_acts st).

Definition set_heap (h : heap) (l : loc) (v : Z) : heap := fun l' => if loc_eqb l l' then v else h l'.

(** ** The generated Viper code *)

Inductive vcmd :=
  | Fold (k : nat) (q : Q) | Unfold (k : nat) (q : Q)
  | Inhale (r : res) (q : Q) | Exhale (r : res) (q : Q)
  | ExhaleRel (k : nat).     (* MustRelease(k, n) demanded by a precondition *)

(** The body of Lock.__init__'s call: its precondition self.invariant() is exhaled. *)
Definition init_code (k : nat) : list vcmd := [Exhale (RInv k) 1].

(** call.py 304-322, 339-341: the invariant is folded, then the constructor is called.  If
    the class has its own constructor, what that one demands and does is seen in later steps. *)
Definition new_code (own_init : bool) (k : nat) : list vcmd :=
  Fold k 1 :: if own_init then [] else init_code k.

(** call.py 683-696, lock.py 70-78: the call assumes the postcondition, then unfold. *)
Definition acquire_code (k : nat) : list vcmd :=
  [Inhale (RInv k) 1; Inhale (RRelU k) 1; Unfold k 1].

(** call.py 697-699, lock.py 80-87: fold, then the call gives up the precondition. *)
Definition release_code (k : nat) : list vcmd :=
  [Fold k 1; ExhaleRel k; Exhale (RInv k) 1].

(** inexhale.py 91-106 without the measure check; must_release.py has no credit. *)
Definition rel_res (p : perms) (k : nat) : res :=
  if negb (Qle_bool (p (RRelB k)) 0) then RRelB k else RRelU k.

Definition has (p : perms) (r : res) : bool := negb (Qle_bool (p r) 0).

(** Fields for which there is no permission yet may have any value; the case considered here
    is that it is the actual one. *)
Definition refresh (h : heap) (a : act) : heap := fun l => if has (a_perm a) (RF l) then a_view a l else h l.

Section Code.
  Variable sub : nat -> nat -> bool.
  Variable F : family.
  Variable h : heap.
  Variable locks : list lock.

  Definition inv_of (k : nat) : asn := body sub F (k_class (nth k locks (Lk 0 0 false false))).
  Definition obj_of (k : nat) : Z := k_obj (nth k locks (Lk 0 0 false false)).

  (** Gaining permission r: what is inside of an invariant that was not held before may have
      any value, as above. *)
  Definition gain (a : act) (r : res) (q : Q) : act :=
    match r with
    | RF l => Act (plus (a_perm a) r q) (refresh h a) (a_snap a)
    | RInv k =>
        Act (plus (a_perm a) r q) (a_view a)
            (fun k' => if (k =? k') && negb (has (a_perm a) r) then h else a_snap a k')
    | _ => Act (plus (a_perm a) r q) (a_view a) (a_snap a)
    end.

  Definition lose (a : act) (r : res) (q : Q) : act := Act (minus (a_perm a) r q) (a_view a) (a_snap a).

  (** What is inside of a folded invariant: the remembered view where it has permission. *)
  Definition inside (k : nat) (a : act) : heap :=
    fun l => if negb (Qle_bool (amounts (obj_of k) (a_snap a k) (inv_of k) l) 0) then a_snap a k l else h l.

  (** One command: the possible results, and what is assumed by it.  Fold (the body is
      evaluated in the view; it is well-defined since predicates are self-framing) exhales the
      body and inhales the predicate, Unfold the other way around. *)
  Inductive exec1 (a : act) : vcmd -> act -> bool -> Prop :=
    | x_fold k q :
        (0 < q)%Q ->
        holds (obj_of k) (a_view a) (inv_of k) = true ->
        (forall l, (q * amounts (obj_of k) (a_view a) (inv_of k) l <= a_perm a (RF l))%Q) ->
        exec1 a (Fold k q)
          (Act (fun r => match r with
                         | RF l => (a_perm a r - q * amounts (obj_of k) (a_view a) (inv_of k) l)%Q
                         | RInv k' => if k =? k' then (a_perm a r + q)%Q else a_perm a r
                         | _ => a_perm a r
                         end)
               (a_view a)
               (fun k' => if (k =? k') && negb (has (a_perm a) (RInv k)) then a_view a else a_snap a k'))
          true
    | x_unfold k q :
        (0 < q)%Q -> (q <= a_perm a (RInv k))%Q ->
        let v := refresh (inside k a) a in
        exec1 a (Unfold k q)
          (Act (fun r => match r with
                         | RF l => (a_perm a r + q * amounts (obj_of k) v (inv_of k) l)%Q
                         | RInv k' => if k =? k' then (a_perm a r - q)%Q else a_perm a r
                         | _ => a_perm a r
                         end)
               v (a_snap a))
          (holds (obj_of k) v (inv_of k))
    | x_inhale r q : exec1 a (Inhale r q) (gain a r q) true
    | x_exhale r q : (q <= a_perm a r)%Q -> exec1 a (Exhale r q) (lose a r q) true
    | x_rel k :
        (1 <= a_perm a (rel_res (a_perm a) k))%Q ->
        exec1 a (ExhaleRel k) (lose a (rel_res (a_perm a) k) 1) true.

  Inductive exec : act -> list vcmd -> act -> bool -> Prop :=
    | x_nil a : exec a [] a true
    | x_cons a c a1 b cs a2 b' : exec1 a c a1 b -> exec a1 cs a2 b' -> exec a (c :: cs) a2 (b && b').
End Code.

(** ** Executions *)

(** What a step does: a read, with the value believed and the actual one; an acquire or
    unfold, with the truth of what is assumed; a release, with the information whether the
    lock is taken (otherwise there is a RuntimeError). *)
Inductive label :=
  | LOther
  | LRead (i : nat) (l : loc) (known found : Z)
  | LWrite (i : nat) (l : loc)
  | LAssume (i k : nat) (true_ : bool)
  | LRelease (i k : nat) (taken : bool).

Section Step.
  Variable sub : nat -> nat -> bool.
  Variable F : family.

  Notation run st i code a b := (exec sub F (s_heap st) (s_locks st) (act_of st i) code a b).

  Inductive step : state -> label -> state -> Prop :=
    (* a new object, with permission to its fields *)
    | t_new i st :
        i < length (s_acts st) ->
        let a := act_of st i in
        step st LOther
          (set_act (St (s_heap st) (s_next st + 1) (s_locks st) (s_acts st)) i
             (Act (fun r => match r with
                            | RF l => if Z.eqb (fst l) (s_next st) then (a_perm a r + 1)%Q else a_perm a r
                            | _ => a_perm a r
                            end) (refresh (s_heap st) a) (a_snap a)))
    | t_read i l st :
        i < length (s_acts st) -> (0 < a_perm (act_of st i) (RF l))%Q ->
        step st (LRead i l (a_view (act_of st i) l) (s_heap st l)) st
    | t_write i l v st :
        i < length (s_acts st) -> (1 <= a_perm (act_of st i) (RF l))%Q ->
        let a := act_of st i in
        step st (LWrite i l)
          (set_act (St (set_heap (s_heap st) l v) (s_next st) (s_locks st) (s_acts st)) i
             (Act (a_perm a) (set_heap (a_view a) l v) (a_snap a)))
    (* C(obj) for a lock class C, with its own constructor or not *)
    | t_lock i C obj own_init a' b st :
        i < length (s_acts st) ->
        let k := length (s_locks st) in
        let st1 := St (s_heap st) (s_next st) (s_locks st ++ [Lk C obj false false]) (s_acts st) in
        run st1 i (new_code own_init k) a' b ->
        step st (LAssume i k b)
          (set_act (if own_init then st1 else set_lock st1 k (Lk C obj true false)) i a')
    (* super().__init__(...) in the constructor of a subclass *)
    | t_init i k a' b st :
        i < length (s_acts st) -> k < length (s_locks st) -> k_ready (lock_of st k) = false ->
        run st i (init_code k) a' b ->
        step st (LAssume i k b)
          (set_act (set_lock st k (Lk (k_class (lock_of st k)) (k_obj (lock_of st k)) true false)) i a')
    (* acquire returns if the lock is free *)
    | t_acquire i k a' b st :
        i < length (s_acts st) -> k < length (s_locks st) ->
        k_ready (lock_of st k) = true -> k_taken (lock_of st k) = false ->
        run st i (acquire_code k) a' b ->
        step st (LAssume i k b)
          (set_act (set_lock st k (Lk (k_class (lock_of st k)) (k_obj (lock_of st k)) true true)) i a')
    | t_release i k a' b st :
        i < length (s_acts st) -> k < length (s_locks st) ->
        run st i (release_code k) a' b ->
        step st (LRelease i k (k_taken (lock_of st k)))
          (set_act (set_lock st k (Lk (k_class (lock_of st k)) (k_obj (lock_of st k)) (k_ready (lock_of st k)) false)) i a')
    (* Fold and Unfold in the program *)
    | t_fold i k q a' b st :
        i < length (s_acts st) -> k < length (s_locks st) -> run st i [Fold k q] a' b ->
        step st (LAssume i k b) (set_act st i a')
    | t_unfold i k q a' b st :
        i < length (s_acts st) -> k < length (s_locks st) -> run st i [Unfold k q] a' b ->
        step st (LAssume i k b) (set_act st i a')
    (* permissions in contracts: from one activation to another *)
    | t_give i j r q st :
        i < length (s_acts st) -> j < length (s_acts st) -> i <> j ->
        (0 <= q)%Q -> (q <= a_perm (act_of st i) r)%Q ->
        step st LOther
          (set_act (set_act st i (lose (act_of st i) r q)) j (gain (s_heap st) (act_of st j) r q))
    (* MustRelease(l, n) in a precondition: exhaled as bounded or unbounded, inhaled as bounded *)
    | t_give_rel i j k st :
        i < length (s_acts st) -> j < length (s_acts st) -> i <> j ->
        let r := rel_res (a_perm (act_of st i)) k in
        (1 <= a_perm (act_of st i) r)%Q ->
        step st LOther
          (set_act (set_act st i (lose (act_of st i) r 1)) j (gain (s_heap st) (act_of st j) (RRelB k) 1))
    (* construct_obligation_bound, before loops *)
    | t_bound i k st :
        i < length (s_acts st) -> (0 < a_perm (act_of st i) (RRelU k))%Q -> (1 <= a_perm (act_of st i) (RRelU k))%Q ->
        step st LOther
          (set_act st i (gain (s_heap st) (lose (act_of st i) (RRelU k) 1) (RRelB k) 1))
    | t_drop i r q st :
        i < length (s_acts st) -> (0 <= q)%Q -> (q <= a_perm (act_of st i) r)%Q ->
        step st LOther (set_act st i (lose (act_of st i) r q))
    | t_call st :
        step st LOther (St (s_heap st) (s_next st) (s_locks st) (s_acts st ++ [no_act])).

  Inductive steps : state -> list label -> state -> Prop :=
    | steps_nil st : steps st [] st
    | steps_snoc st1 tr st2 l st3 : steps st1 tr st2 -> step st2 l st3 -> steps st1 (tr ++ [l]) st3.
End Step.

(** No objects, no locks, one activation without permissions. *)
Definition start : state := St (fun _ => 0%Z) 0%Z [] [no_act].

(** ** Which classes are taken for locks *)

(** A class: whether its name is Lock, its function get_locked (None: there is none; Some
    None: it has no body; Some (Some v): it returns v), and whether it has a predicate called
    invariant. *)
Record lclass := LC { lc_is_lock : bool; lc_get_locked : option (option Z); lc_invariant : bool }.

(** What a constructor call assumes because of call.py 304-322: nothing, or that get_locked
    (which returns [def]) gives the first argument, or it crashes. *)
Inductive lock_fact := NoFact | Crash | Fact (def : option Z) (v : Z).

(** call.py 227-232: the class itself and then its superclasses, by name only; 309-313. *)
Definition new_lock_fact (chain : list lclass) (args : list Z) : lock_fact :=
  match find lc_is_lock chain with
  | None => NoFact
  | Some c =>
      match lc_get_locked c, args with
      | Some d, v :: _ => if lc_invariant c then Fact d v else Crash
      | _, _ => Crash
      end
  end.
