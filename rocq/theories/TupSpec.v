(** What annotations with tuples and unions mean, independently of the translator.

    Type arguments of classes are class types ([texpr]); type variables do not occur in
    annotations here. *)
From Coq Require Import List Arith.
From Verif Require Import ClsModel ClsSpec.
Import ListNotations.

Inductive ann :=
| AObj (t : texpr)               (* a class, with type arguments *)
| ANone                          (* None *)
| ATuple (l : list ann)          (* Tuple[t1, ..., tn] *)
| ATupleVar (a : ann)            (* Tuple[t, ...] *)
| AUnion (l : list ann)          (* Union[t1, ..., tn] *)
| AOpt (a : ann).                (* Optional[t] *)

Inductive val :=
| VObj (t : texpr)               (* an object of a class *)
| VNone
| VTuple (l : list val).

(** Python's (mypy's) reading: which values have a type. *)
Fixpoint member (tb : table) (v : val) (a : ann) {struct a} : Prop :=
  match a with
  | AObj u =>
      match v with
      | VObj t => below tb t u
      | VNone => below tb (TApp none_id []) u
      | VTuple _ => u = TApp object_id []
      end
  | ANone => v = VNone
  | ATuple l =>
      match v with
      | VTuple vs =>
          (fix all (vs : list val) (l : list ann) {struct l} : Prop :=
             match vs, l with
             | [], [] => True
             | v :: vs, a :: l => member tb v a /\ all vs l
             | _, _ => False
             end) vs l
      | _ => False
      end
  | ATupleVar a => match v with VTuple vs => Forall (fun v => member tb v a) vs | _ => False end
  | AUnion l => (fix any (l : list ann) : Prop := match l with [] => False | a :: l => member tb v a \/ any l end) l
  | AOpt a => v = VNone \/ member tb v a
  end.

(** Values and annotations whose classes exist. Plain objects of class object are left out
    of values, and so is NoneType as a class. *)
Inductive good_val (n : nat) (tb : table) : val -> Prop :=
| gv_obj c l : wf_texpr n tb 0 (TApp c l) -> c <> object_id -> c <> none_id -> good_val n tb (VObj (TApp c l))
| gv_none : good_val n tb VNone
| gv_tuple l : Forall (good_val n tb) l -> good_val n tb (VTuple l).
Inductive good_ann (n : nat) (tb : table) : ann -> Prop :=
| ga_obj t : wf_texpr n tb 0 t -> good_ann n tb (AObj t)
| ga_none : good_ann n tb ANone
| ga_tuple l : Forall (good_ann n tb) l -> good_ann n tb (ATuple l)
| ga_var a : good_ann n tb a -> good_ann n tb (ATupleVar a)
| ga_union l : l <> [] -> Forall (good_ann n tb) l -> good_ann n tb (AUnion l)
| ga_opt a : good_ann n tb a -> good_ann n tb (AOpt a).

(** Python has no subclasses of NoneType. *)
Definition none_final (n : nat) (tb : table) : Prop := forall c, c < n -> superclass tb c <> Some none_id.

(** Unions (also Optional, except for the annotation itself) that have a member that is
    neither None nor a tuple type, and at most four members. *)
Inductive plain : ann -> Prop :=      (* some member is not a tuple *)
| pl_obj t : plain (AObj t)
| pl_union l a : In a l -> plain a -> plain (AUnion l)
| pl_opt a : plain a -> plain (AOpt a).
Inductive expressible : ann -> Prop :=
| ex_obj t : expressible (AObj t)
| ex_none : expressible ANone
| ex_tuple l : Forall expressible l -> expressible (ATuple l)
| ex_var a : expressible a -> expressible (ATupleVar a)
| ex_union l : length l <= 4 -> plain (AUnion l) -> Forall expressible l -> expressible (AUnion l)
| ex_opt a : plain a -> expressible a -> expressible (AOpt a).

(** Types of expressions in generic classes: how many elements a tuple of the type has. *)
Inductive gtype :=
| GVar (i : nat)
| GClass (c : nat)
| GTuple (args : list gtype) (exact : bool).      (* not exact: Tuple[t, ...] *)
Definition may_have (t : gtype) (k : nat) : Prop :=
  match t with GTuple args true => k = length args | GTuple _ false => True | _ => False end.
