(** Model of the verification service (service.py) as a system of threads: requests,
    cancellations and reconfigurations, interleaved at every access to shared state,
    together with the Viper server that finishes jobs at arbitrary times.

    Simplifications: the two dictionaries of the error manager are one object; the
    translation reads its options in one step and then registers positions one by
    one; file system, ViperServer cache and arguments of the request are part of
    the parameters [tr] and [verdict]; jobs of the serial path cannot be cancelled
    one by one (they are not registered under a token) and cancel_all is not applied
    to them; exceptions of await_result other than cancellation are not modelled;
    starting and stopping the server is not modelled. *)
From Coq Require Import Bool Arith List.
From Verif Require Import ErrModel ErrSpec.
Import ListNotations.

Inductive backend := Silicon | Carbon | OtherBackend.

(** service.py 147-153 and config: the options read by requests. [tools]: z3_path and
    boogie_path; [server]: config.use_viper_server and the server is started. *)
Record config := {
  c_backend : backend; c_sif : bool; c_bv : nat; c_float : nat;
  c_dbc : bool; c_tools : nat; c_mypy : nat; c_server : bool
}.

(** What the global sil_programs was loaded for (main.py 108-112). *)
Record resources := { r_bv : nat; r_sif : bool; r_float : nat }.
Definition load (c : config) : resources :=
  {| r_bv := c_bv c; r_sif := c_sif c; r_float := c_float c |}.

(** A call of verify (187-206): an identification of path and arguments, arp, token. *)
Record request := { q_id : nat; q_arp : bool; q_token : option nat }.

(** Everything translate reads (main.py 114-200). *)
Record topts := {
  t_sif : bool; t_bv : nat; t_float : nat; t_mypy : nat; t_res : resources; t_obl : option bool
}.
(** Diagnostics for a rejected program; any other exception; a program. *)
Inductive toutcome := TRejected (d : nat) | TCrash | TProg (p : nat).
Inductive vresult := VSuccess | VInternal | VFailed (es : list verror).

(** verifier.py 25-60: which command line is built, from which options. *)
Record bargs := { a_carbon : bool; a_dbc : bool; a_tools : nat }.
(** service.py 372-376 *)
Definition build_args (c : config) : bargs :=
  match c_backend c with
  | Carbon => {| a_carbon := true; a_dbc := false; a_tools := c_tools c |}
  | _ => {| a_carbon := false; a_dbc := c_dbc c; a_tools := c_tools c |}
  end.
(** viper_server.py 101-114 *)
Definition submit_carbon (c : config) : bool :=
  match c_backend c with Carbon => true | _ => false end.
(** service.py 436-437 and main.py 233-248 *)
Definition serial_carbon (c : config) : bool :=
  match c_backend c with Silicon => false | _ => true end.
Definition serial_args (c : config) : bargs :=
  if serial_carbon c then {| a_carbon := true; a_dbc := false; a_tools := c_tools c |}
  else {| a_carbon := false; a_dbc := c_dbc c; a_tools := c_tools c |}.

(** The parts that are not modelled, as functions. [tr]: the requests for positions
    made by the translation, its outcome, and the obligation setting afterwards
    (main.py 165-167). [verdict]: the verifier. [ce]: the counterexample shown for an
    error, with or without the SIF transformation (manager.py 136-145). *)
Record env := {
  e_obl0 : option bool;
  e_tr : topts -> request -> list reg * toutcome * option bool;
  e_verdict : nat -> bool -> bargs -> vresult;
  e_ce : bool -> verror -> option nat
}.

(** VerifyResult (91-101), without durations. *)
Inductive result :=
| RRejected (d : nat)
| RSuccess
| RInternal
| RFailed (l : list (report * option nat))
| RCancelled
| RCrash.

(** Control points of a request. [conc]: the path chosen in verify. [snap]: reference
    to the copied dictionaries. *)
Inductive rpc :=
| QStart
| QWait (conc : bool)
| QReset (conc : bool)
| QClear (conc : bool)
| QReg (conc : bool) (todo : list reg) (o : toutcome)
| QSnap (p : nat)
| QClearS (p snap : nat)
| QRelease (p snap : nat)
| QArgs (p snap : nat)
| QSubmit (p snap : nat) (a : bargs)
| QPut (snap job : nat)
| QAwait (snap job : nat)
| QDel (snap job : nat) (r : option vresult)
| QWaitC (snap : nat) (es : list verror)
| QInstall (snap : nat) (es : list verror)
| QVerify (p : nat)
| QFail (conc : bool) (es : list verror)
| QConv (conc : bool) (sf : bool) (es : list verror) (acc : list (report * option nat))
| QClearC (r : result)
| QUnlock (r : result)
| QDone (r : result).

Inductive cpc := CStart | CFound (job : nat) | CDone.

(** The assignments of reconfigure (303-327), in the order given by the options. *)
Inductive update :=
| UTools (n : nat) | UMypy (n : nat) | UBackend (b : backend) | UServer (b : bool)
| UDbc (b : bool) | USif (b : bool) | UBv (n : nat) | UFloat (n : nat).
Inductive fpc := FStart | FApply (todo : list update) (reload : bool) | FUnlock | FDone.

Inductive thread :=
| TReq (q : request) (p : rpc)
| TCancel (tok : option nat) (p : cpc)
| TReconf (us : list update) (p : fpc).

Inductive status := Running | Finished (v : vresult) | Stopped.
Record job := { j_owner : nat; j_prog : nat; j_carbon : bool; j_args : bargs; j_status : status }.

Record state := {
  lock : option nat;             (* _state_lock *)
  cells : nat -> manager;        (* dictionary objects *)
  ncell : nat;
  em : nat;                      (* the object the error manager refers to *)
  obl : option bool;             (* config.obligation_config.disable_all *)
  cfg : config;
  res : resources;               (* main.sil_programs *)
  jobs : nat -> option nat;      (* _jobs *)
  srv : nat -> job;
  njob : nat;
  thr : nat -> thread
}.

Definition upd {A} (f : nat -> A) (k : nat) (v : A) : nat -> A :=
  fun x => if x =? k then v else f x.

Definition with_lock (l : option nat) (s : state) : state :=
  {| lock := l; cells := cells s; ncell := ncell s; em := em s; obl := obl s; cfg := cfg s;
     res := res s; jobs := jobs s; srv := srv s; njob := njob s; thr := thr s |}.
Definition with_em (m : manager) (s : state) : state :=
  {| lock := lock s; cells := upd (cells s) (em s) m; ncell := ncell s; em := em s; obl := obl s;
     cfg := cfg s; res := res s; jobs := jobs s; srv := srv s; njob := njob s; thr := thr s |}.
Definition with_new_cell (m : manager) (s : state) : state :=
  {| lock := lock s; cells := upd (cells s) (ncell s) m; ncell := S (ncell s); em := em s; obl := obl s;
     cfg := cfg s; res := res s; jobs := jobs s; srv := srv s; njob := njob s; thr := thr s |}.
Definition with_em_ref (r : nat) (s : state) : state :=
  {| lock := lock s; cells := cells s; ncell := ncell s; em := r; obl := obl s;
     cfg := cfg s; res := res s; jobs := jobs s; srv := srv s; njob := njob s; thr := thr s |}.
Definition with_obl (o : option bool) (s : state) : state :=
  {| lock := lock s; cells := cells s; ncell := ncell s; em := em s; obl := o;
     cfg := cfg s; res := res s; jobs := jobs s; srv := srv s; njob := njob s; thr := thr s |}.
Definition with_cfg (c : config) (s : state) : state :=
  {| lock := lock s; cells := cells s; ncell := ncell s; em := em s; obl := obl s;
     cfg := c; res := res s; jobs := jobs s; srv := srv s; njob := njob s; thr := thr s |}.
Definition with_res (r : resources) (s : state) : state :=
  {| lock := lock s; cells := cells s; ncell := ncell s; em := em s; obl := obl s;
     cfg := cfg s; res := r; jobs := jobs s; srv := srv s; njob := njob s; thr := thr s |}.
Definition with_jobs (j : nat -> option nat) (s : state) : state :=
  {| lock := lock s; cells := cells s; ncell := ncell s; em := em s; obl := obl s;
     cfg := cfg s; res := res s; jobs := j; srv := srv s; njob := njob s; thr := thr s |}.
Definition with_new_job (j : job) (s : state) : state :=
  {| lock := lock s; cells := cells s; ncell := ncell s; em := em s; obl := obl s; cfg := cfg s;
     res := res s; jobs := jobs s; srv := upd (srv s) (njob s) j; njob := S (njob s); thr := thr s |}.
Definition with_srv (f : nat -> job) (s : state) : state :=
  {| lock := lock s; cells := cells s; ncell := ncell s; em := em s; obl := obl s; cfg := cfg s;
     res := res s; jobs := jobs s; srv := f; njob := njob s; thr := thr s |}.
Definition with_thr (i : nat) (t : thread) (s : state) : state :=
  {| lock := lock s; cells := cells s; ncell := ncell s; em := em s; obl := obl s; cfg := cfg s;
     res := res s; jobs := jobs s; srv := srv s; njob := njob s; thr := upd (thr s) i t |}.

Definition set_status (st : status) (j : job) : job :=
  {| j_owner := j_owner j; j_prog := j_prog j; j_carbon := j_carbon j; j_args := j_args j; j_status := st |}.

(** 248-256 *)
Definition can_run_concurrently (c : config) (q : request) : bool :=
  negb (q_arp q || c_sif c || match c_backend c with OtherBackend => true | _ => false end
        || negb (c_server c)).

(** 346-353 and 425-430 *)
Definition options (conc : bool) (s : state) : topts :=
  {| t_sif := if conc then false else c_sif (cfg s); t_bv := c_bv (cfg s); t_float := c_float (cfg s);
     t_mypy := c_mypy (cfg s); t_res := res s; t_obl := obl s |}.

Definition has_reason (r : report * option nat) : bool :=
  match p_reason (fst r) with Some _ => true | None => false end.

(** One step of request [q] running as thread [i]: the state after it and the next
    control point; [None]: the thread waits. *)
Definition step_request (E : env) (i : nat) (q : request) (p : rpc) (s : state) : option (state * rpc) :=
  match p with
  | QStart => Some (s, QWait (can_run_concurrently (cfg s) q))          (* 205 *)
  | QWait conc =>                                                          (* 209, 345 *)
      match lock s with None => Some (with_lock (Some i) s, QReset conc) | Some _ => None end
  | QReset conc => Some (with_obl (e_obl0 E) s, QClear conc)              (* 212-224 *)
  | QClear conc =>                                                         (* main.py 123 *)
      let '(regs, o, ob) := e_tr E (options conc s) q in
      Some (with_obl ob (with_em (clear (cells s (em s))) s), QReg conc regs o)
  | QReg conc (g :: todo) o =>                                             (* viper_ast.py 543 *)
      match to_position (g_id g) (g_file g) (Some (g_node g)) (g_vias g) (g_reason g) (g_rules g)
                        (cells s (em s)) with
      | Some (_, m) => Some (with_em m s, QReg conc todo o)
      | None => Some (s, QUnlock RCrash)
      end
  | QReg conc [] (TRejected d) => Some (s, QUnlock (RRejected d))         (* 354-364, 453-459 *)
  | QReg conc [] TCrash => Some (s, QUnlock RCrash)
  | QReg conc [] (TProg p) => Some (s, if conc then QSnap p else QVerify p)
  | QSnap p =>                                                             (* 367-368 *)
      Some (with_new_cell (cells s (em s)) s, QClearS p (ncell s))
  | QClearS p snap => Some (with_em (clear (cells s (em s))) s, QRelease p snap)   (* 369 *)
  | QRelease p snap => Some (with_lock None s, QArgs p snap)
  | QArgs p snap => Some (s, QSubmit p snap (build_args (cfg s)))          (* 372-376 *)
  | QSubmit p snap a =>                                                    (* 377 *)
      Some (with_new_job {| j_owner := i; j_prog := p; j_carbon := submit_carbon (cfg s);
                            j_args := a; j_status := Running |} s, QPut snap (njob s))
  | QPut snap j =>                                                         (* 378-380 *)
      Some (match q_token q with
            | Some t => with_jobs (upd (jobs s) t (Some j)) s
            | None => s
            end, QAwait snap j)
  | QAwait snap j =>                                                       (* 381-382 *)
      match j_status (srv s j) with
      | Running => None
      | Finished v => Some (s, QDel snap j (Some v))
      | Stopped => Some (s, QDel snap j None)
      end
  | QDel snap j r =>                                                       (* 388-405 *)
      Some (match q_token q with
            | Some t => match jobs s t with
                        | Some j' => if j' =? j then with_jobs (upd (jobs s) t None) s else s
                        | None => s
                        end
            | None => s
            end,
            match r with
            | None => QDone RCancelled
            | Some VInternal => QDone RInternal
            | Some VSuccess => QDone RSuccess
            | Some (VFailed es) => QWaitC snap es
            end)
  | QWaitC snap es =>                                                      (* 406 *)
      match lock s with None => Some (with_lock (Some i) s, QInstall snap es) | Some _ => None end
  | QInstall snap es => Some (with_em_ref snap s, QFail true es)          (* 407 *)
  | QVerify p =>                                                           (* 436-451 *)
      Some (s, match e_verdict E p (serial_carbon (cfg s)) (serial_args (cfg s)) with
               | VSuccess => QUnlock RSuccess
               | VInternal => QUnlock RInternal
               | VFailed es => QFail false es
               end)
  | QFail conc es => Some (s, QConv conc (c_sif (cfg s)) es [])           (* 413, verifier.py 91 *)
  | QConv conc sf (e :: es) acc =>
      match convert_error (cells s (em s)) e with
      | Some r => Some (s, QConv conc sf es (acc ++ [(r, e_ce E sf e)]))
      | None => Some (s, if conc then QClearC RCrash else QUnlock RCrash)
      end
  | QConv conc sf [] acc =>                                                (* 414, 449 *)
      let r := if forallb has_reason acc then RFailed acc else RCrash in
      Some (s, if conc then QClearC r else QUnlock r)
  | QClearC r => Some (with_em (clear (cells s (em s))) s, QUnlock r)     (* 416 *)
  | QUnlock r => Some (with_lock None s, QDone r)
  | QDone _ => None
  end.

(** cancel (226-246), viper_server.py 124-140, 150-153 *)
Definition step_cancel (tok : option nat) (p : cpc) (s : state) : option (state * cpc) :=
  match p with
  | CStart =>
      if c_server (cfg s) then
        match tok with
        | Some t => match jobs s t with
                    | Some j => Some (s, CFound j)
                    | None => Some (s, CDone)
                    end
        | None =>
            Some (with_srv (fun j => match j_status (srv s j) with
                                     | Running => if j <? njob s then set_status Stopped (srv s j) else srv s j
                                     | _ => srv s j
                                     end) s, CDone)
        end
      else Some (s, CDone)
  | CFound j =>
      Some (match j_status (srv s j) with
            | Running => with_srv (upd (srv s) j (set_status Stopped (srv s j))) s
            | _ => s
            end, CDone)
  | CDone => None
  end.

(** 303-325: the new configuration and whether the resources must be reloaded *)
Definition apply_update (u : update) (c : config) : config * bool :=
  match u with
  | UTools n => ({| c_backend := c_backend c; c_sif := c_sif c; c_bv := c_bv c; c_float := c_float c;
                    c_dbc := c_dbc c; c_tools := n; c_mypy := c_mypy c; c_server := c_server c |}, false)
  | UMypy n => ({| c_backend := c_backend c; c_sif := c_sif c; c_bv := c_bv c; c_float := c_float c;
                    c_dbc := c_dbc c; c_tools := c_tools c; c_mypy := n; c_server := c_server c |}, false)
  | UBackend b => ({| c_backend := b; c_sif := c_sif c; c_bv := c_bv c; c_float := c_float c;
                    c_dbc := c_dbc c; c_tools := c_tools c; c_mypy := c_mypy c; c_server := c_server c |}, false)
  | UServer b => ({| c_backend := c_backend c; c_sif := c_sif c; c_bv := c_bv c; c_float := c_float c;
                    c_dbc := c_dbc c; c_tools := c_tools c; c_mypy := c_mypy c; c_server := b |}, false)
  | UDbc b => ({| c_backend := c_backend c; c_sif := c_sif c; c_bv := c_bv c; c_float := c_float c;
                    c_dbc := b; c_tools := c_tools c; c_mypy := c_mypy c; c_server := c_server c |}, false)
  | USif b => if Bool.eqb b (c_sif c) then (c, false) else
              ({| c_backend := c_backend c; c_sif := b; c_bv := c_bv c; c_float := c_float c;
                    c_dbc := c_dbc c; c_tools := c_tools c; c_mypy := c_mypy c; c_server := c_server c |}, true)
  | UBv n => if n =? c_bv c then (c, false) else
              ({| c_backend := c_backend c; c_sif := c_sif c; c_bv := n; c_float := c_float c;
                    c_dbc := c_dbc c; c_tools := c_tools c; c_mypy := c_mypy c; c_server := c_server c |}, true)
  | UFloat n => if n =? c_float c then (c, false) else
              ({| c_backend := c_backend c; c_sif := c_sif c; c_bv := c_bv c; c_float := n;
                    c_dbc := c_dbc c; c_tools := c_tools c; c_mypy := c_mypy c; c_server := c_server c |}, true)
  end.

(** reconfigure (288-332) *)
Definition step_reconf (i : nat) (us : list update) (p : fpc) (s : state) : option (state * fpc) :=
  match p with
  | FStart => match lock s with None => Some (with_lock (Some i) s, FApply us false) | Some _ => None end
  | FApply (u :: todo) reload =>
      let (c, r) := apply_update u (cfg s) in Some (with_cfg c s, FApply todo (reload || r))
  | FApply [] reload => Some (if reload then with_res (load (cfg s)) s else s, FUnlock)
  | FUnlock => Some (with_lock None s, FDone)
  | FDone => None
  end.

Definition step (E : env) (i : nat) (s : state) : option state :=
  match thr s i with
  | TReq q p => match step_request E i q p s with
                | Some (s', p') => Some (with_thr i (TReq q p') s')
                | None => None
                end
  | TCancel tok p => match step_cancel tok p s with
                     | Some (s', p') => Some (with_thr i (TCancel tok p') s')
                     | None => None
                     end
  | TReconf us p => match step_reconf i us p s with
                    | Some (s', p') => Some (with_thr i (TReconf us p') s')
                    | None => None
                    end
  end.

(** The server finishes job [j]. *)
Definition finish_job (E : env) (j : nat) (s : state) : option state :=
  if j <? njob s then
    match j_status (srv s j) with
    | Running =>
        Some (with_srv (upd (srv s) j (set_status (Finished
               (e_verdict E (j_prog (srv s j)) (j_carbon (srv s j)) (j_args (srv s j)))) (srv s j))) s)
    | _ => None
    end
  else None.

(** A schedule: which thread runs, or which job finishes, next. *)
Inductive event := Run (i : nat) | Finish (j : nat).
Definition exec1 (E : env) (e : event) (s : state) : option state :=
  match e with Run i => step E i s | Finish j => finish_job E j s end.
Fixpoint exec (E : env) (evs : list event) (s : state) : option state :=
  match evs with
  | [] => Some s
  | e :: evs' => match exec1 E e s with Some s' => exec E evs' s' | None => None end
  end.
