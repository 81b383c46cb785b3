(** Model of the translation of permission amounts (translators/permission.py).

    Simplifications: literals are integers; variables are integers, which are either
    references to boxed integers or Viper integers; attributes and calls are pure
    expressions of Python type int; keyword and surplus arguments are not modelled. *)
From Coq Require Import ZArith QArith.
From Verif Require Import PermSpec.

Inductive vtype := TInt | TPerm | TRef.
Inductive vexp :=
| VFull
| VWildcard
| VLit (z : Z)
| VRef (x : nat)                 (* a variable that holds a boxed integer *)
| VVar (x : nat)                 (* an integer variable, or the unboxed value *)
| VTerm (t : nat)
| VMul (a b : vexp) | VAdd (a b : vexp) | VSub (a b : vexp) | VMinus (a : vexp)   (* on Int *)
| VFrac (a b : vexp)
| VPermDiv (a b : vexp)
| VIntPermMul (a b : vexp)
| VPermMul (a b : vexp)
| VPermAdd (a b : vexp)
| VPermSub (a b : vexp)
| VRd | VRdc (a : vexp) | VToken (t : nat) | VTokenFresh (t : nat) | VGlobalRd.

(** Types of Viper expressions (typ() in Silver). *)
Definition typ (v : vexp) : vtype :=
  match v with
  | VLit _ | VVar _ | VTerm _ | VMul _ _ | VAdd _ _ | VSub _ _ | VMinus _ => TInt
  | VRef _ => TRef
  | _ => TPerm
  end.
Definition nowild (v : vexp) : bool := match v with VWildcard => false | _ => true end.
(** The operands that Silver accepts: they have the right types, and a wildcard is no
    operand. *)
Fixpoint well_typed (v : vexp) : bool :=
  let is t a :=
    match t, typ a with TInt, TInt | TPerm, TPerm | TRef, TRef => true | _, _ => false end &&
    nowild a in
  match v with
  | VFull | VWildcard | VLit _ | VRef _ | VVar _ | VTerm _ | VRd | VToken _ | VTokenFresh _ | VGlobalRd => true
  | VMul a b | VAdd a b | VSub a b | VFrac a b => is TInt a && is TInt b && well_typed a && well_typed b
  | VMinus a | VRdc a => is TInt a && well_typed a
  | VPermDiv a b => is TPerm a && is TInt b && well_typed a && well_typed b
  | VIntPermMul a b => is TInt a && is TPerm b && well_typed a && well_typed b
  | VPermMul a b | VPermAdd a b | VPermSub a b => is TPerm a && is TPerm b && well_typed a && well_typed b
  end.

Section Trans.
  (** Is the variable a Viper integer (as quantified variables can be)? *)
  Variable viper_int : nat -> bool.
  (** Is the flag --arp given? *)
  Variable arp_flag : bool.

  (** The function and the thread that the contract is translated for. *)
  Variable here : place.

  (** get_arp_for_context (158-182) *)
  Definition arp_for_context : option vexp :=
    match here with
    | InPure => Some VWildcard                                               (* 159-161 *)
    | _ =>
        if arp_flag then                                                     (* 163-164 *)
          Some (match here with
                | Starting t => VTokenFresh t                                (* 169-174 *)
                | Joining t => VToken t                                      (* 175-179 *)
                | _ => VRd                                                   (* 180-182 *)
                end)
        else None
    end.

  (** translate_expr of a variable without a target type (147). *)
  Definition name (x : nat) : vexp := if viper_int x then VVar x else VRef x.

  (** translate_expr with the type Int as target, for integer expressions; None: not an
      integer expression, or an exception. *)
  Fixpoint tr_int (a : amount) : option vexp :=
    match a with
    | ANum z => Some (VLit z)
    | AName x => Some (VVar x)
    | ATerm t => Some (VTerm t)
    | ABin o a b =>
        match tr_int a, tr_int b with
        | Some x, Some y =>
            match o with OAdd => Some (VAdd x y) | OSub => Some (VSub x y) | OMul => Some (VMul x y) | _ => None end
        | _, _ => None
        end
    | ANeg a => option_map VMinus (tr_int a)
    | _ => None
    end.

  Definition is_int_typed (v : vexp) : bool := match typ v with TInt => true | _ => false end.

  (** translate_perm (27-33 and the visitors); None: UnsupportedException or
      InvalidProgramException. The operand of a product or the numerator of a quotient
      goes through translate_perm_or_int (44-53): literals are integers there. *)
  Fixpoint tr_perm (a : amount) : option vexp :=
    let perm_or_int (a : amount) :=
      match a with
      | ANum z => Some (VLit z, true)                                        (* 46-50 *)
      | _ => option_map (fun v => (v, is_int_typed v)) (tr_perm a)           (* 51-53 *)
      end in
    match a with
    | ANum z => if (z =? 1)%Z then Some VFull else None                      (* 38-42 *)
    | ABin ODiv a b =>                                                       (* 57-70 *)
        match perm_or_int a, tr_int b with
        | Some (l, li), Some r => Some (if li then VFrac l r else VPermDiv l r)
        | _, _ => None
        end
    | ABin OMul a b =>                                                       (* 72-90 *)
        match perm_or_int a, perm_or_int b with
        | Some (l, li), Some (r, ri) =>
            let '(l, li, r, ri) := if negb (Bool.eqb li ri) && ri then (r, ri, l, li) else (l, li, r, ri) in
            Some (if li && ri then VMul l r else if li || ri then VIntPermMul l r else VPermMul l r)
        | _, _ => None
        end
    | ABin OAdd a b =>                                                       (* 92-103 *)
        match tr_perm a, tr_perm b with Some l, Some r => Some (VPermAdd l r) | _, _ => None end
    | ABin OSub a b =>
        match tr_perm a, tr_perm b with Some l, Some r => Some (VPermSub l r) | _, _ => None end
    | ABin OMod _ _ => None                                                  (* 104 *)
    | AArp => if arp_flag then arp_for_context else None                     (* 108-112 *)
    | AArpN a => if arp_flag then option_map VRdc (tr_int a) else None       (* 113-122 *)
    | AGetArp t => if arp_flag then Some (VToken t) else None                (* 123-134 *)
    | ATerm t => Some (VTerm t)                                              (* 136-139, 152-156 *)
    | ARdPred => if arp_flag then Some VGlobalRd else None                   (* 142-146 *)
    | AName x => Some (name x)                                               (* 147-150 *)
    | ANeg _ => None                                                         (* translate_generic *)
    end.

  (** The permission amount of Acc, Rd and Wildcard (contract.py 121-135, 1108-1117). *)
  Definition perm_of (q : request) : option vexp :=
    match q with
    | RAcc => Some VFull                                                     (* 126-128 *)
    | RAccA a => tr_perm a                                                   (* 129-130 *)
    | RRd => arp_for_context                                                 (* 1111-1112 *)
    | RWildcard => Some VWildcard                                            (* 1113-1115 *)
    end.
  (** What Silver accepts as a permission amount: a well-typed expression of type Perm. *)
  Definition accepted (q : request) : option vexp :=
    match perm_of q with
    | Some v => match typ v with TPerm => if well_typed v then Some v else None | _ => None end
    | None => None
    end.
End Trans.

(** Viper's arithmetic. *)
Fixpoint veval (r : env) (v : vexp) : option Q :=
  let op2 f a b := match veval r a, veval r b with Some x, Some y => f x y | _, _ => None end in
  match v with
  | VFull => Some 1%Q
  | VWildcard => Some (wild r)
  | VLit z => Some (inject_Z z)
  | VRef x | VVar x => Some (inject_Z (var r x))
  | VTerm t => Some (inject_Z (term r t))
  | VMul a b | VIntPermMul a b | VPermMul a b => op2 (fun x y => Some (x * y)%Q) a b
  | VAdd a b | VPermAdd a b => op2 (fun x y => Some (x + y)%Q) a b
  | VSub a b | VPermSub a b => op2 (fun x y => Some (x - y)%Q) a b
  | VMinus a => option_map Qopp (veval r a)
  | VFrac a b | VPermDiv a b => op2 (fun x y => if Qeq_bool y 0 then None else Some (x / y)%Q) a b
  | VRd => Some (arp r)
  | VRdc a => match veval r a with Some q => option_map (arp_n r) (is_int q) | None => None end
  | VToken t => Some (arp_of r t)
  | VTokenFresh t => Some (arp_fresh r t)
  | VGlobalRd => Some (rd_pred r)
  end.
