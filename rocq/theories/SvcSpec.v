(** What clients of the service rely on (C25). *)
From Coq Require Import Bool Arith List.
From Verif Require Import ErrModel ErrSpec SvcModel.
Import ListNotations.

(** A service that has just been created, with any number of calls about to start. *)
Definition initial (s : state) : Prop :=
  lock s = None /\ em s < ncell s /\ res s = load (cfg s) /\
  (forall t, jobs s t = None) /\ njob s = 0 /\
  forall i, match thr s i with
            | TReq _ p => p = QStart
            | TCancel _ p => p = CStart
            | TReconf _ p => p = FStart
            end.

Definition reachable (E : env) (s : state) : Prop :=
  exists s0 evs, initial s0 /\ exec E evs s0 = Some s.

(** Thread [i] is a request that has started and not yet returned. *)
Definition active (s : state) (i : nat) : Prop :=
  match thr s i with TReq _ QStart | TReq _ (QDone _) => False | TReq _ _ => True | _ => False end.

Definition finished (t : thread) : Prop :=
  match t with TReq _ (QDone _) | TCancel _ CDone | TReconf _ FDone => True | _ => False end.

(** The reports for the errors [es] of a program whose translation left the error
    manager in state [m]. *)
Definition reports (E : env) (sif : bool) (m : manager) (es : list verror) : result :=
  match convert m es with
  | Some rs => if forallb (fun r => match p_reason r with Some _ => true | None => false end) rs
               then RFailed (combine rs (map (e_ce E sif) es)) else RCrash
  | None => RCrash
  end.
Definition answer (E : env) (sif : bool) (m : manager) (v : vresult) : result :=
  match v with
  | VSuccess => RSuccess
  | VInternal => RInternal
  | VFailed es => reports E sif m es
  end.

(** The answer to request [q] if it is the only one, with configuration [c]. *)
Definition alone (E : env) (c : config) (q : request) : result :=
  let '(regs, o, _) := e_tr E {| t_sif := c_sif c; t_bv := c_bv c; t_float := c_float c; t_mypy := c_mypy c;
                                 t_res := load c; t_obl := e_obl0 E |} q in
  match translation {| items := []; crules := [] |} regs with
  | None => RCrash
  | Some (_, m) =>
      match o with
      | TRejected d => RRejected d
      | TCrash => RCrash
      | TProg p =>
          let carbon := match c_backend c with Silicon => false | _ => true end in
          answer E (c_sif c) m
            (e_verdict E p carbon {| a_carbon := carbon;
                                     a_dbc := if carbon then false else c_dbc c; a_tools := c_tools c |})
      end
  end.

(** The token a request was made with. *)
Definition token_of (t : thread) : option nat := match t with TReq q _ => q_token q | _ => None end.
