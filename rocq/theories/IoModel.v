(** Input/output operations: their existential variables, the checks that they terminate,
    and Open. Values (places, integers, truth values) are integers; a condition is true if
    it is not 0.

    Simplifications: arguments of operations are split into inputs and results by their
    position; bodies consist of operations, conditions, "and", Implies and conditional
    expressions; IOForall and eval_io are not modelled. *)
From Coq Require Import List Bool Arith ZArith.
Import ListNotations.
Local Open Scope nat_scope.

(** Python expressions over parameters and existential variables. *)
Inductive expr :=
| EInt (z : Z) | EVar (x : nat) | EAdd (a b : expr) | ELt (a b : expr) | EEq (a b : expr) | ENot (a : expr).

Inductive body :=
| BOp (o : nat) (ins : list expr) (outs : list nat)
| BPure (e : expr)
| BAnd (a b : body)
| BImp (c : expr) (a : body)
| BIf (c : expr) (a b : body).

(** lib/program_nodes.py 1276-1466 (PythonIOOperation): parameters (preset and inputs),
    results (outputs and postset), existential variables, Terminates and
    TerminationMeasure (by default False and 1), and the body unless it is basic. *)
Record op := { params : list nat; results : list nat; existentials : list nat;
               term : expr; measure : expr; def : option body }.
Definition prog := list (nat * op).

Fixpoint look {A : Type} (x : nat) (l : list (nat * A)) : option A :=
  match l with [] => None | (y, a) :: l' => if y =? x then Some a else look x l' end.
Definition mem (x : nat) (l : list nat) : bool := existsb (Nat.eqb x) l.

(** The operation gap_io. *)
Definition gap : nat := 0.

Definition b2z (b : bool) : Z := if b then 1%Z else 0%Z.
Definition truth (z : Z) : bool := negb (z =? 0)%Z.

Fixpoint names (e : expr) : list nat :=
  match e with EInt _ => [] | EVar x => [x] | EAdd a b | ELt a b | EEq a b => names a ++ names b | ENot a => names a end.

(** * The check of bodies (lib/io_checkers.py 28-90) *)

(** Existential variables without definition, and the definitions in their order: the
    operation and its arguments, and which of its results. *)
Record cstate := { undef : list nat; defs : list (nat * (nat * list expr * nat)) }.

(** 68-84: the results. *)
Fixpoint check_outs (ex res : list nat) (o : nat) (ins : list expr) (k : nat) (outs : list nat) (st : cstate) : option cstate :=
  match outs with
  | [] => Some st
  | r :: outs' =>
      if mem r ex || mem r res
      then check_outs ex res o ins (S k) outs'
             (if mem r (undef st)
              then {| undef := filter (fun y => negb (y =? r)) (undef st); defs := defs st ++ [(r, (o, ins, k))] |}
              else st)
      else None
  end.
(** 54-60 (visit_Name): uses of existential variables. *)
Definition check_expr (st : cstate) (e : expr) : bool := forallb (fun x => negb (mem x (undef st))) (names e).

Section Check.
  Variable P : prog.

  (** The results are looked at before the arguments. The number of results is checked
      when the call is translated (result_translator.py 153-156). *)
  Fixpoint check (ex res : list nat) (b : body) (st : cstate) : option cstate :=
    match b with
    | BOp o ins outs =>
        match look o P with
        | Some p =>
            if (length ins =? length (params p)) && (length outs =? length (results p))
            then match check_outs ex res o ins 0 outs st with
                 | Some st' => if forallb (check_expr st') ins then Some st' else None
                 | None => None
                 end
            else None
        | None => None
        end
    | BPure e => if check_expr st e then Some st else None
    | BAnd a b => match check ex res a st with Some st' => check ex res b st' | None => None end
    | BImp c a => if check_expr st c then check ex res a st else None
    | BIf c a b =>
        if check_expr st c
        then match check ex res a st with Some st' => check ex res b st' | None => None end
        else None
    end.
  Definition check_body (p : op) (b : body) : option (list (nat * (nat * list expr * nat))) :=
    match check (existentials p) (results p) b {| undef := existentials p; defs := [] |} with
    (* program_nodes.py 1768-1776: every existential variable must have a definition *)
    | Some st => match undef st with [] => Some (defs st) | _ => None end
    | None => None
    end.
End Check.

(** * Viper expressions *)

(** VGet o k args: the function of result k of the operation o (utils.py 20-26). VAlias:
    the local variables that Open introduces. *)
Inductive vexpr :=
| VInt (z : Z) | VVar (x : nat) | VAlias (x : nat)
| VAdd (a b : vexpr) | VLt (a b : vexpr) | VEq (a b : vexpr) | VNot (a : vexpr)
| VGet (o k : nat) (args : list vexpr).

Definition getters := nat -> list Z -> nat -> Z.

Fixpoint veval (G : getters) (rho alpha : nat -> Z) (e : vexpr) : Z :=
  match e with
  | VInt z => z
  | VVar x => rho x
  | VAlias x => alpha x
  | VAdd a b => (veval G rho alpha a + veval G rho alpha b)%Z
  | VLt a b => b2z (veval G rho alpha a <? veval G rho alpha b)%Z
  | VEq a b => b2z (veval G rho alpha a =? veval G rho alpha b)%Z
  | VNot a => b2z (negb (truth (veval G rho alpha a)))
  | VGet o k args => G o (map (veval G rho alpha) args) k
  end.

(** Names are translated as the environment (aliases and existential references) says; an
    existential variable without reference is an error (program_nodes.py 1719-1730). *)
Fixpoint trans (env : list (nat * vexpr)) (e : expr) : option vexpr :=
  match e with
  | EInt z => Some (VInt z)
  | EVar x => look x env
  | EAdd a b => match trans env a, trans env b with Some p, Some q => Some (VAdd p q) | _, _ => None end
  | ELt a b => match trans env a, trans env b with Some p, Some q => Some (VLt p q) | _, _ => None end
  | EEq a b => match trans env a, trans env b with Some p, Some q => Some (VEq p q) | _, _ => None end
  | ENot a => option_map VNot (trans env a)
  end.
Fixpoint transs (env : list (nat * vexpr)) (es : list expr) : option (list vexpr) :=
  match es with
  | [] => Some []
  | e :: es' => match trans env e, transs env es' with Some v, Some vs => Some (v :: vs) | _, _ => None end
  end.

(** * Termination checks *)

(** definition.py 127-145 (_translate_defining_getters): the references of existential
    variables, in the order of their definitions. *)
Fixpoint refs (env : list (nat * vexpr)) (ds : list (nat * (nat * list expr * nat))) : option (list (nat * vexpr)) :=
  match ds with
  | [] => Some env
  | (x, (o, ins, k)) :: ds' =>
      match transs env ins with Some args => refs ((x, VGet o k args) :: env) ds' | None => None end
  end.
Definition param_env (p : op) : list (nat * vexpr) := map (fun x => (x, VVar x)) (params p).

(** termination_check.py 62-112 with lib/guard_collectors.py: the sub-operations with the
    conditions that guard them. *)
Record sub := { s_guards : list vexpr; s_op : nat; s_args : list vexpr }.
Fixpoint subs (env : list (nat * vexpr)) (gs : list vexpr) (b : body) : option (list sub) :=
  match b with
  | BOp o ins _ => option_map (fun args => [{| s_guards := gs; s_op := o; s_args := args |}]) (transs env ins)
  | BPure _ => Some []
  | BAnd a b => match subs env gs a, subs env gs b with Some l, Some l' => Some (l ++ l') | _, _ => None end
  | BImp c a => match trans env c with Some g => subs env (gs ++ [g]) a | None => None end
  | BIf c a b =>
      match trans env c with
      | Some g => match subs env (gs ++ [g]) a, subs env (gs ++ [VNot g]) b with Some l, Some l' => Some (l ++ l') | _, _ => None end
      | None => None
      end
  end.

Section Term.
  Variable P : prog.

  (** 134-189: the checks of one sub-operation, under the condition of the operation. *)
  Definition sub_ok (G : getters) (rho : nat -> Z) (t m : vexpr) (s : sub) : Prop :=
    truth (veval G rho (fun _ => 0%Z) t) = true ->
    Forall (fun g => truth (veval G rho (fun _ => 0%Z) g) = true) (s_guards s) ->
    s_op s <> gap /\
    exists p t' m', look (s_op s) P = Some p /\
      trans (combine (params p) (s_args s)) (term p) = Some t' /\
      trans (combine (params p) (s_args s)) (measure p) = Some m' /\
      truth (veval G rho (fun _ => 0%Z) t') = true /\
      (veval G rho (fun _ => 0%Z) m > veval G rho (fun _ => 0%Z) m')%Z.

  (** definition.py 147-192 (_create_termination_check): the method of an operation
      verifies, for all parameters and all getters. *)
  Definition term_ok (p : op) : Prop :=
    exists t m, trans (param_env p) (term p) = Some t /\ trans (param_env p) (measure p) = Some m /\
    forall G rho,
      (truth (veval G rho (fun _ => 0%Z) t) = true -> (veval G rho (fun _ => 0%Z) m > 0)%Z) /\
      match def p with
      | None => True
      | Some b =>
          exists ds env ss, check_body P p b = Some ds /\ refs (param_env p) ds = Some env /\ subs env [] b = Some ss /\
            Forall (sub_ok G rho t m) ss
      end.
  Definition terms_ok : Prop := forall o p, In (o, p) P -> term_ok p.
End Term.

(** * Open (opener.py) *)

(** The translated body: an access predicate with the equations for its results, ... *)
Inductive vbody :=
| WAcc (o : nat) (args : list vexpr) (eqs : list (vexpr * vexpr))
| WPure (e : vexpr)
| WAnd (a b : vbody)
| WImp (c : vexpr) (a : vbody)
| WIf (c : vexpr) (a b : vbody).

(** result_translator.py 128-151 and 191-198: a result defines the variable, or gives an
    equation if it is already defined. *)
Fixpoint tr_outs (o : nat) (args : list vexpr) (k : nat) (outs : list nat) (ds : list (nat * vexpr)) : list (vexpr * vexpr) * list (nat * vexpr) :=
  match outs with
  | [] => ([], ds)
  | r :: outs' =>
      match look r ds with
      | Some _ => let (eqs, ds') := tr_outs o args (S k) outs' ds in ((VGet o k args, VAlias r) :: eqs, ds')
      | None => tr_outs o args (S k) outs' (ds ++ [(r, VGet o k args)])
      end
  end.
(** use.py 56-86 (translate_io_operation_call) *)
Fixpoint tr_body (env : list (nat * vexpr)) (b : body) (ds : list (nat * vexpr)) : option (vbody * list (nat * vexpr)) :=
  match b with
  | BOp o ins outs =>
      match transs env ins with
      | Some args => let (eqs, ds') := tr_outs o args 0 outs ds in Some (WAcc o args eqs, ds')
      | None => None
      end
  | BPure e => option_map (fun v => (WPure v, ds)) (trans env e)
  | BAnd a b =>
      match tr_body env a ds with
      | Some (wa, ds1) => match tr_body env b ds1 with Some (wb, ds2) => Some (WAnd wa wb, ds2) | None => None end
      | None => None
      end
  | BImp c a =>
      match trans env c, tr_body env a ds with Some v, Some (wa, ds1) => Some (WImp v wa, ds1) | _, _ => None end
  | BIf c a b =>
      match trans env c, tr_body env a ds with
      | Some v, Some (wa, ds1) => match tr_body env b ds1 with Some (wb, ds2) => Some (WIf v wa wb, ds2) | None => None end
      | _, _ => None
      end
  end.

(** Viper's replace, of a local variable by an expression. *)
Fixpoint replace (a : nat) (d : vexpr) (e : vexpr) : vexpr :=
  match e with
  | VAlias x => if x =? a then d else VAlias x
  | VAdd p q => VAdd (replace a d p) (replace a d q)
  | VLt p q => VLt (replace a d p) (replace a d q)
  | VEq p q => VEq (replace a d p) (replace a d q)
  | VNot p => VNot (replace a d p)
  | VGet o k args => VGet o k (map (replace a d) args)
  | VInt _ | VVar _ => e
  end.
Fixpoint wreplace (a : nat) (d : vexpr) (b : vbody) : vbody :=
  match b with
  | WAcc o args eqs => WAcc o (map (replace a d) args) (map (fun q => (replace a d (fst q), replace a d (snd q))) eqs)
  | WPure e => WPure (replace a d e)
  | WAnd p q => WAnd (wreplace a d p) (wreplace a d q)
  | WImp c p => WImp (replace a d c) (wreplace a d p)
  | WIf c p q => WIf (replace a d c) (wreplace a d p) (wreplace a d q)
  end.

(** opener.py 118-126: the aliases are replaced one after the other, in the body and in
    the other definitions. *)
Fixpoint resolve (aliases : list nat) (ds : list (nat * vexpr)) (b : vbody) : option vbody :=
  match aliases with
  | [] => Some b
  | a :: rest =>
      match look a ds with
      | None => None
      | Some d => resolve rest (map (fun q => if fst q =? a then q else (fst q, replace a d (snd q))) ds) (wreplace a d b)
      end
  end.

(** 109-181: parameters stand for the arguments, results and existential variables for new
    local variables; the results are defined from the start. *)
Definition open_env (p : op) (args : list vexpr) : list (nat * vexpr) :=
  combine (params p) args ++ map (fun x => (x, VAlias x)) (results p ++ existentials p).
Definition number {A : Type} (l : list A) : list (nat * A) := combine (seq 0 (length l)) l.
Definition open_defs (o : nat) (p : op) (args : list vexpr) : list (nat * vexpr) :=
  map (fun q => (snd q, VGet o (fst q) args)) (number (results p)).
Definition open_body (o : nat) (p : op) (b : body) (args : list vexpr) : option vbody :=
  match tr_body (open_env p args) b (open_defs o p args) with
  | Some (w, ds) => resolve (results p ++ existentials p) ds w
  | None => None
  end.

(** What Viper assumes when it inhales the body: its conditions, and the permissions for
    operations that it gets. *)
Fixpoint wcond (G : getters) (rho alpha : nat -> Z) (b : vbody) : Prop :=
  match b with
  | WAcc _ _ eqs => Forall (fun q => veval G rho alpha (fst q) = veval G rho alpha (snd q)) eqs
  | WPure e => truth (veval G rho alpha e) = true
  | WAnd p q => wcond G rho alpha p /\ wcond G rho alpha q
  | WImp c p => truth (veval G rho alpha c) = true -> wcond G rho alpha p
  | WIf c p q => if truth (veval G rho alpha c) then wcond G rho alpha p else wcond G rho alpha q
  end.
Fixpoint wperms (G : getters) (rho alpha : nat -> Z) (b : vbody) : list (nat * list Z) :=
  match b with
  | WAcc o args _ => [(o, map (veval G rho alpha) args)]
  | WPure _ => []
  | WAnd p q => wperms G rho alpha p ++ wperms G rho alpha q
  | WImp c p => if truth (veval G rho alpha c) then wperms G rho alpha p else []
  | WIf c p q => if truth (veval G rho alpha c) then wperms G rho alpha p else wperms G rho alpha q
  end.
