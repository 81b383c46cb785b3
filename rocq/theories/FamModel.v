(** Predicate families: how a predicate that is defined in several classes is encoded, and
    which Viper predicate a use of it refers to.
    Models /repo/src/nagini_translation/translators/predicate.py:67-190,
    translators/contract.py:228-245, translators/call.py:1346-1353 and
    lib/program_nodes.py:631-640. *)
From Coq Require Import Bool Arith List NArith.
From Verif Require Import ClsModel UnitModel.
Import ListNotations.
Local Open Scope nat_scope.

(** program_nodes.py:631-640 get_predicate: in the class, else in the superclass.  The answer
    is the class whose dictionary holds it. *)
Fixpoint get_predicate_f (fuel : nat) (P : prog) (c : cid) (x : nat) : option cid :=
  match fuel with
  | O => None
  | S f =>
    if mem x (p_preds P c) then Some c
    else match superclass (p_tb P) c with Some p => get_predicate_f f P p x | None => None end
  end.
Definition get_predicate (P : prog) (c : cid) (x : nat) : option cid := get_predicate_f (S c) P c x.

(** contract.py:239-242 and call.py:1348-1351: climb while the superclass knows the
    predicate. *)
Fixpoint climb_f (fuel : nat) (P : prog) (c : cid) (x : nat) : cid :=
  match fuel with
  | O => c
  | S f =>
    match superclass (p_tb P) c with
    | Some p => match get_predicate P p x with Some _ => climb_f f P p x | None => c end
    | None => c
    end
  end.

(** The predicate that a use [e.x()] refers to when the static class of [e] is [c]; it is
    named by the class that contains it.  contract.py starts at the class that contains the
    predicate, call.py at the class of the receiver. *)
Definition used_in_acc (P : prog) (c : cid) (x : nat) : option cid :=
  match get_predicate P c x with
  | None => None
  | Some d => get_predicate P (climb_f d P d x) x
  end.
Definition used_in_call (P : prog) (c : cid) (x : nat) : option cid := get_predicate P (climb_f c P c x) x.

(** The parts of the body of a family predicate: the body of the predicate of a class, or the
    abstract rest predicate of the family. *)
Inductive part := PBody (c : cid) | PRest.
(** Their guards: [issubtype(typeof(self), c)], or typeof(self) is none of these classes. *)
Inductive guard := GSub (c : cid) | GNone (cs : list cid).
Definition guard_holds (tb : table) (t : cid) (g : guard) : bool :=
  match g with
  | GSub c => issubtype tb t c
  | GNone cs => forallb (fun c => negb (t =? c)) cs
  end.

Inductive family :=
| FRejected                                (** partially.abstract.predicate.family *)
| FAbstract                                (** a predicate without a body *)
| FBody (parts : list (guard * part)).

(** program.py:1474-1481: the members of the family with root [r], in the order of the
    classes. *)
Definition members (P : prog) (r : cid) (x : nat) : list cid :=
  filter (fun c => mem x (p_preds P c) && (pred_root P c x =? r)) (flat_map md_classes (p_modules P)).

(** predicate.py:75-77, with the toposort function of ClsModel. *)
Definition member_deps (P : prog) (x : nat) (c : cid) : list cid :=
  match pred_overrides P c x with Some p => [p] | None => [] end.

(** predicate.py:67-190.  [lock] is [root.name == 'invariant' and root.cls.name == 'Lock'].
    The types of the arguments and the checks of the form of the bodies are left out.  A
    circular dependency (which single inheritance excludes) is a rejection. *)
Definition translate_family (P : prog) (lock : bool) (r : cid) (x : nat) : family :=
  let ms := members P r x in
  let abs c := m_declared (p_info P (OClass c) x) in
  if existsb (fun c => negb (Bool.eqb (abs c) (abs r))) ms then FRejected
  else if abs r then FAbstract
  else match toposort_f (length ms) (member_deps P x) ms with
       | None => FRejected
       | Some sorted =>
         FBody (map (fun c => (GSub c, PBody c)) sorted ++ (if lock then [] else [(GNone sorted, PRest)]))
       end.

(** What the predicate stands for when the exact class of the receiver is [t]; None: nothing
    is known about it. *)
Definition content (P : prog) (lock : bool) (r : cid) (x : nat) (t : cid) : option (list part) :=
  match translate_family P lock r x with
  | FBody parts => Some (map snd (filter (fun gp => guard_holds (p_tb P) t (fst gp)) parts))
  | _ => None
  end.
