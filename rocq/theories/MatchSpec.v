(** Python's [match] statement (independent of the translation).

    Reference: Python language reference, "The match statement".  Patterns are
    tried in order; a pattern that succeeds binds its capture names, then the
    guard is evaluated; if the guard fails the next case is tried (the bindings
    that were made remain). *)
From Coq Require Import List Bool Arith.
From Verif Require Import ExprSpec.
Import ListNotations.

Inductive pattern : Type :=
| PWild
| PCap (x : nat)
| PAs (p : pattern) (x : nat)
| PNone
| PBool (b : bool)
| PVal (w : val)
| PClass (c : nat) (kws : list (nat * pattern))
| POr (p : pattern) (ps : list pattern).

(** Run-time classes and [==] of the program. *)
Record classes : Type := {
  isinst : val -> nat -> bool;
  eqv : val -> val -> bool
}.

(** Bindings made by matching [v] against the keyword patterns of a class
    pattern, attribute by attribute; [None] if one of them fails. *)
Definition match_kws (m : pattern -> val -> option (list (nat * val))) (h : heap) (v : val) :
  list (nat * pattern) -> option (list (nat * val)) :=
  fix go kws :=
    match kws with
    | [] => Some []
    | (f, p) :: kws' =>
        match m p (get_field h v f), go kws' with
        | Some bs, Some bs' => Some (bs ++ bs')
        | _, _ => None
        end
    end.

Definition first_some (m : pattern -> option (list (nat * val))) :
  list pattern -> option (list (nat * val)) :=
  fix go ps :=
    match ps with
    | [] => None
    | p :: ps' => match m p with Some bs => Some bs | None => go ps' end
    end.

Fixpoint py_match (C : classes) (h : heap) (p : pattern) (v : val) {struct p} : option (list (nat * val)) :=
  match p with
  | PWild => Some []
  | PCap x => Some [(x, v)]
  | PAs p x => match py_match C h p v with Some bs => Some (bs ++ [(x, v)]) | None => None end
  | PNone => match v with VNone => Some [] | _ => None end
  | PBool b => match v with VBool b' => if Bool.eqb b b' then Some [] else None | _ => None end
  | PVal w => if eqv C v w then Some [] else None
  | PClass c kws => if isinst C v c then match_kws (py_match C h) h v kws else None
  | POr p ps =>
      match py_match C h p v with
      | Some bs => Some bs
      | None => first_some (fun q => py_match C h q v) ps
      end
  end.

Definition bind_all (l : locals) (bs : list (nat * val)) : locals :=
  fold_left (fun l b => upd_loc l (fst b) (snd b)) bs l.

(** A case: pattern and optional guard (a condition over the locals; the heap
    does not change while the cases are tried). *)
Record mcase : Type := { c_pat : pattern; c_guard : option (locals -> bool) }.

(** The chosen case (if any) and the locals when its body starts (or after the
    statement, if no case was chosen). *)
Fixpoint py_cases (C : classes) (h : heap) (v : val) (i : nat) (l : locals) (cs : list mcase) :
  option nat * locals :=
  match cs with
  | [] => (None, l)
  | c :: cs' =>
      match py_match C h (c_pat c) v with
      | None => py_cases C h v (S i) l cs'
      | Some bs =>
          let l' := bind_all l bs in
          match c_guard c with
          | None => (Some i, l')
          | Some g => if g l' then (Some i, l') else py_cases C h v (S i) l' cs'
          end
      end
  end.

(** The names a pattern captures. *)
Fixpoint captures (p : pattern) : list nat :=
  match p with
  | PCap x => [x]
  | PAs p x => captures p ++ [x]
  | PClass _ kws => flat_map (fun kp => captures (snd kp)) kws
  | POr p ps => captures p ++ flat_map captures ps
  | _ => []
  end.

(** Python rejects a pattern that binds a name twice. *)
Definition names_distinct (p : pattern) : Prop := NoDup (captures p).

(** no capture below an or-pattern *)
Fixpoint or_free (p : pattern) : bool :=
  match p with
  | PAs p _ => or_free p
  | PClass _ kws => forallb (fun kp => or_free (snd kp)) kws
  | POr p ps => match captures p ++ flat_map captures ps with [] => true | _ => false end
  | _ => true
  end.

(** Names bound to the subject itself (not to one of its attributes). *)
Fixpoint whole_captures (p : pattern) : list nat :=
  match p with
  | PCap x => [x]
  | PAs p x => whole_captures p ++ [x]
  | _ => []
  end.

(** Names bound to an attribute by a keyword pattern. *)
Fixpoint part_captures (p : pattern) : list nat :=
  match p with
  | PAs p _ => part_captures p
  | PClass _ kws => flat_map (fun kp => captures (snd kp)) kws
  | _ => []
  end.

(** Classes with keyword patterns have objects as instances (so that reading the
    attribute is possible). *)
Fixpoint kws_ok (C : classes) (p : pattern) : Prop :=
  match p with
  | PAs p _ => kws_ok C p
  | PClass c kws =>
      (kws <> [] -> forall v, isinst C v c = true -> exists r, v = VRef r) /\
      fold_right (fun kp P => kws_ok C (snd kp) /\ P) True kws
  | POr p ps => kws_ok C p /\ fold_right (fun q P => kws_ok C q /\ P) True ps
  | _ => True
  end.

(** [g] looks at no name in [xs]. *)
Definition independent (g : locals -> bool) (xs : list nat) : Prop :=
  forall l l', (forall x, ~ In x xs -> l x = l' x) -> g l = g l'.

(** Names whose value the guard of a case must not look at: names that an earlier
    case bound although its guard failed, and names this pattern binds to an
    attribute; unless the pattern binds them to the subject. *)
Definition out_of_sight (stale : list nat) (p : pattern) : list nat :=
  filter (fun x => negb (existsb (Nat.eqb x) (whole_captures p))) (stale ++ part_captures p).

Fixpoint guards_ok (stale : list nat) (cs : list mcase) : Prop :=
  match cs with
  | [] => True
  | c :: cs' =>
      match c_guard c with
      | None => guards_ok stale cs'
      | Some g => independent g (out_of_sight stale (c_pat c)) /\
                  guards_ok (stale ++ captures (c_pat c)) cs'
      end
  end.

(** Names captured by cases that have a guard. *)
Definition guarded_names (cs : list mcase) : list nat :=
  flat_map (fun c => match c_guard c with None => [] | Some _ => captures (c_pat c) end) cs.

Definition case_ok (C : classes) (c : mcase) : Prop :=
  names_distinct (c_pat c) /\ or_free (c_pat c) = true /\ kws_ok C (c_pat c).
