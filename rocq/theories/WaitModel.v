(** Wait levels: the checks that an acquire, a join, a call, a loop and a thread start are
    verified with.
    Models /repo/src/nagini_translation/translators/obligation/waitlevel.py, the wait-level
    parts of obligation/method_node.py, method_call_node.py, loop_node.py and fork.py, of
    _translate_thread_join in translators/call.py, resources/lock.sil and
    /repo/src/nagini_contracts/lock.py.

    Simplifications.  The value of the uninterpreted function [Level] is part of the identity
    of a lock or thread object.  Contracts are given by their meaning: the pure part, the locks
    for which [MustRelease] is demanded or given, and the locks [x] for which
    [WaitLevel() < Level(x)] is demanded or given, the guards of implications being evaluated
    already (see GuardModel for the guards).  Fields are not modelled apart from the local
    store; a read of shared state gives an arbitrary value.  Measures, termination obligations
    and exceptional exits are left out: leaving them out accepts more programs. *)
From Coq Require Import NArith QArith List Permutation Bool.
Import ListNotations.
Open Scope Q_scope.

(** A lock or thread object: its identity and its level (lock.sil:8 function Level). *)
Definition ref := (N * Q)%type.
Definition Level (r : ref) : Q := snd r.

Inductive val := VNone | VInt (z : Z) | VRef (r : ref).
Definition store := list val.

(** An assertion in a contract or loop invariant. *)
Record assn := {
  pure : store -> Prop;
  locks : store -> list ref;      (* MustRelease(l) *)
  waits : store -> list ref }.    (* WaitLevel() < Level(x) *)

(** The variables that are not in the list have the same values: what is known after a loop
    about the variables that it does not assign. *)
Definition agree (assigned : list nat) (s s' : store) : Prop :=
  forall i, ~ In i assigned -> nth_error s i = nth_error s' i.

(** Statements.  [Do f]: [f] gets the store and an arbitrary value (a read of shared state). *)
Inductive cmd :=
| Skip
| Do (f : store -> val -> store)
| Seq (c1 c2 : cmd)
| If (b : store -> bool) (c1 c2 : cmd)
| While (b : store -> bool) (assigned : list nat) (inv : assn) (c : cmd)
| Call (m : nat) (args : store -> list val) (ret : val -> store -> store)
| Acquire (l : store -> ref)
| Release (l : store -> ref)
| NewLock (above below : store -> option ref) (ret : val -> store -> store)
| Start (m : nat) (args : store -> list val) (ret : val -> store -> store)
| Join (t : store -> ref).

(** A method: the precondition is about the arguments, the postcondition about the result
    followed by the arguments. *)
Record meth := { m_pre : assn; m_post : assn; m_body : cmd; m_ret : store -> val }.
Definition prog := list meth.

(** waitlevel.py:96-114 create_level_below: all locks for which permission is held ([held]) and
    the residue are below [x]. *)
Definition create_level_below (residue : Q) (held : list ref) (x : ref) : Prop :=
  Forall (fun h => Level h < Level x) held /\ residue < Level x.
(** waitlevel.py:116-131 initialize_current_wait_level, what is assumed (the inhale side). *)
Definition initialize_current_wait_level (current residue : Q) (held : list ref) : Prop :=
  Forall (fun h => Level h <= current) held /\ residue <= current.

(** A call (method_call_node.py:85-116; waitlevel.py:183-207 for the precondition, where the
    check is appended to the preconditions, so that [held] is what remains, and for the
    postcondition, where the wait level is initialised first).  [residue] is the argument
    passed for the residue. *)
Definition call_check (residue : Q) (pre post : assn) (a : list val)
    (ret : val -> store) (Q : store -> list ref -> Prop) (held : list ref) : Prop :=
  pure pre a /\
  exists rest, Permutation held (locks pre a ++ rest) /\
    Forall (create_level_below residue rest) (waits pre a) /\
    forall v current,
      initialize_current_wait_level current residue rest ->
      pure post (v :: a) ->
      Forall (fun x => current < Level x) (waits post (v :: a)) ->
      Q (ret v) (locks post (v :: a) ++ rest).

(** nagini_contracts/lock.py:72-90 Lock.acquire and Lock.release; the argument is the lock. *)
Definition lock_of (s : store) : list ref := match s with VRef r :: _ => [r] | _ => [] end.
Definition acquire_pre : assn := {| pure := fun _ => True; locks := fun _ => []; waits := lock_of |}.
Definition acquire_post : assn :=
  {| pure := fun _ => True; locks := fun s => lock_of (tl s); waits := fun _ => [] |}.
Definition release_pre : assn := {| pure := fun _ => True; locks := lock_of; waits := fun _ => [] |}.
Definition release_post : assn := {| pure := fun _ => True; locks := fun _ => []; waits := fun _ => [] |}.
(** lock.py:37-59 Lock.__init__ with the arguments [above] and [below]. *)
Definition arg (s : store) (i : nat) : option ref :=
  match nth_error s i with Some (VRef r) => Some r | _ => None end.
Definition init_pre : assn := {|
  pure := fun s => match arg s 0, arg s 1 with Some a, Some b => Level a < Level b | _, _ => True end;
  locks := fun _ => [];
  waits := fun s => match arg s 0, arg s 1 with None, Some b => [b] | _, _ => [] end |}.
Definition init_post : assn := {|
  pure := fun s => match arg s 0 with
                   | None => False
                   | Some self =>
                     match arg s 1 with Some a => Level a < Level self | None => True end /\
                     match arg s 2 with Some b => Level self < Level b | None => True end
                   end;
  locks := fun _ => [];
  waits := fun s => match arg s 0, arg s 1 with Some self, None => [self] | _, _ => [] end |}.
Definition opt_val (o : option ref) : val := match o with Some r => VRef r | None => VNone end.

(** Two places where the code leaves out a part of the check; both are [false] in the code. *)
Record config := {
  (* fork.py:171-196: ignore_waitlevel_constraints is set while the precondition of the
     started method is translated, so its wait-level constraints are dropped *)
  start_checks_waits : bool;
  (* call.py:1646: the residue of the method is used for a join, also inside a loop *)
  join_uses_loop_residue : bool }.
Definition nagini : config := {| start_checks_waits := false; join_uses_loop_residue := false |}.

Section Verifier.
  Variable C : config.
  Variable P : prog.

  (** The verification condition of a statement: [rm] is the residue parameter of the method,
      [r] the residue in use (the innermost loop's, method_call_node.py:91-97), [held] the
      locks for which a MustRelease obligation is held.  What holds of the store and the
      obligations afterwards is [Q]. *)
  Fixpoint check (rm r : Q) (c : cmd) (Q : store -> list ref -> Prop) (s : store) (held : list ref) {struct c} : Prop :=
    match c with
    | Skip => Q s held
    | Do f => forall v, Q (f s v) held
    | Seq c1 c2 => check rm r c1 (check rm r c2 Q) s held
    | If b c1 c2 => if b s then check rm r c1 Q s held else check rm r c2 Q s held
    | While b assigned inv c1 =>
        (* waitlevel.py:145-181, loop_node.py:85-169 *)
        (pure inv s /\
         exists rest, Permutation held (locks inv s ++ rest) /\
           (* the check before the loop (176-180) *)
           Forall (create_level_below r rest) (waits inv s) /\
           (* after the loop: loop_node.py:104-120 and waitlevel.py:169-175 *)
           (forall s' loop_residue, agree assigned s s' -> pure inv s' -> b s' = false ->
              initialize_current_wait_level loop_residue r rest ->
              Forall (fun x => r < Level x) (waits inv s') ->
              Q s' (locks inv s' ++ rest))) /\
        (* the body, verified with nothing but the invariant *)
        (forall s' loop_residue, agree assigned s s' -> pure inv s' -> b s' = true ->
           initialize_current_wait_level loop_residue r [] ->
           Forall (fun x => loop_residue < Level x) (waits inv s') ->
           check rm loop_residue c1 (fun s'' held'' =>
             agree assigned s' s'' /\ pure inv s'' /\
             exists rest, Permutation held'' (locks inv s'' ++ rest) /\
               (* waitlevel.py:164-168 and the leak check of the body, loop_node.py:160-169 *)
               Forall (create_level_below loop_residue rest) (waits inv s'') /\ rest = [])
             s' (locks inv s'))
    | Call m args ret =>
        match nth_error P m with
        | None => False
        | Some me => call_check r (m_pre me) (m_post me) (args s) (fun v => ret v s) Q held
        end
    | Acquire l => call_check r acquire_pre acquire_post [VRef (l s)] (fun _ => s) Q held
    | Release l => call_check r release_pre release_post [VRef (l s)] (fun _ => s) Q held
    | NewLock above below ret =>
        call_check r init_pre init_post [opt_val (above s); opt_val (below s)] (fun v => ret v s) Q held
    | Start m args ret =>
        (* call.py:1571-1617 _translate_thread_start, fork.py:142-230 *)
        match nth_error P m with
        | None => False
        | Some me =>
            (* 152-157: no obligations in the postcondition *)
            (forall s', locks (m_post me) s' = []) /\
            pure (m_pre me) (args s) /\
            exists rest, Permutation held (locks (m_pre me) (args s) ++ rest) /\
              (if start_checks_waits C then Forall (create_level_below r rest) (waits (m_pre me) (args s)) else True) /\
              (* 212-230: assumed about the new thread *)
              forall t, create_level_below rm rest t -> Q (ret (VRef t) s) rest
        end
    | Join t =>
        (* call.py:1643-1651 *)
        create_level_below (if join_uses_loop_residue C then r else rm) held (t s) /\ Q s held
    end.

  (** A method is verified on its own: waitlevel.py:183-207, method_node.py:124-137 and 204-216,
      leak check of the body 246-264. *)
  Definition method_verified (me : meth) : Prop :=
    forall a residue,
      pure (m_pre me) a ->
      Forall (fun x => residue < Level x) (waits (m_pre me) a) ->
      check residue residue (m_body me) (fun s held =>
        pure (m_post me) (m_ret me s :: a) /\
        exists rest, Permutation held (locks (m_post me) (m_ret me s :: a) ++ rest) /\
          rest = [] /\
          Forall (create_level_below residue rest) (waits (m_post me) (m_ret me s :: a)))
        a (locks (m_pre me) a).
  Definition verified : Prop := forall m me, nth_error P m = Some me -> method_verified me.
End Verifier.
