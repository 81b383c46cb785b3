(** What the user expects from error reports, stated over the history of
    registrations (C24), the texts (C37) and the lists of messages (C38). *)
From Coq Require Import Bool Arith NArith ZArith Ascii String List.
From Verif Require Import ErrModel.
Import ListNotations.
Open Scope list_scope.

(** One request for a position made during translation: the id that is drawn, the
    file, the Python node, the chain of via positions, the reason text, the rules. *)
Record reg := {
  g_id : nat; g_file : str; g_node : pynode; g_vias : list (str * str);
  g_reason : option str; g_rules : option rules
}.

(** A translation: positions are requested one after the other. *)
Fixpoint translation (m : manager) (h : list reg) : option (list vpos * manager) :=
  match h with
  | [] => Some ([], m)
  | g :: h' =>
      match to_position (g_id g) (g_file g) (Some (g_node g)) (g_vias g) (g_reason g) (g_rules g) m with
      | None => None
      | Some (p, m1) =>
          match translation m1 h' with Some (ps, m2) => Some (p :: ps, m2) | None => None end
      end
  end.

(** [p] is the position made for request [g] of history [h]. *)
Definition made_for (h : list reg) (p : vpos) (g : reg) : Prop :=
  In g h /\ exists l c e, n_pos (g_node g) = Some (l, c, e) /\ p = IdPos (g_file g) l c e (g_id g).

(** Positions that can occur in errors about a program translated by [h]. *)
Definition position_of (h : list reg) (p : vpos) : Prop :=
  match p with IdPos _ _ _ _ _ => exists g, made_for h p g | _ => True end.

(** The node itself and the operands of conjunctions and implications in it. *)
Inductive part : vnode -> vnode -> Prop :=
| part_refl : forall n, part n n
| part_and_l : forall p l r n, part l n -> part (VAnd p l r) n
| part_and_r : forall p l r n, part r n -> part (VAnd p l r) n
| part_imp_l : forall p l r n, part l n -> part (VImplies p l r) n
| part_imp_r : forall p l r n, part r n -> part (VImplies p l r) n.

Definition positions_of (h : list reg) (n : vnode) : Prop :=
  forall q, part n q -> position_of h (node_pos q).

Definition error_of (h : list reg) (e : verror) : Prop :=
  position_of h (ve_pos e) /\ positions_of h (ve_node e) /\
  match ve_reason e with Some r => positions_of h (vr_node r) | None => True end.

(** (Non-empty) rules registered for a position. *)
Definition rules_at (h : list reg) (p : vpos) (r : rules) : Prop :=
  r <> [] /\ exists g, made_for h p g /\ g_rules g = Some r.

(** Applying renaming rules to the ids of an error and its reason. *)
Definition renamed (r : rules) (k k' : str * str) : Prop :=
  (forall v, rule_lookup k r = Some v -> k' = v) /\ (rule_lookup k r = None -> k' = k).

(** The rules are those registered for the failing position itself; only if there
    are none anywhere in the failing assertion may those of the reason be used. *)
Definition rules_choice (h : list reg) (e : verror) (r : rules) : Prop :=
  (forall r0, rules_at h (node_pos (ve_node e)) r0 -> r = r0) /\
  ((forall q r0, part (ve_node e) q -> ~ rules_at h (node_pos q) r0) ->
    forall vr, ve_reason e = Some vr ->
      (forall r0, rules_at h (node_pos (vr_node vr)) r0 -> r = r0) /\
      ((forall q r0, part (vr_node vr) q -> ~ rules_at h (node_pos q) r0) -> r = [])) /\
  (r <> [] -> exists q, rules_at h (node_pos q) r /\
     (part (ve_node e) q \/ exists vr, ve_reason e = Some vr /\ part (vr_node vr) q)).

Definition item_for (h : list reg) (p : vpos) (i : option item) : Prop :=
  match i with
  | Some i => exists g, made_for h p g /\ i_node i = g_node g /\ i_vias i = g_vias g /\
                        i_reason i = g_reason g
  | None => forall g, ~ made_for h p g
  end.

(** The report for one error that is not a timeout. *)
Definition report_ok (h : list reg) (e : verror) (o : report) : Prop :=
  p_pos o = ve_pos e /\
  (forall g, made_for h (ve_pos e) g -> p_node o = Some (g_node g) /\ p_vias o = Some (g_vias g)) /\
  ((forall g, ~ made_for h (ve_pos e) g) -> p_node o = None /\ p_vias o = None) /\
  match ve_reason e with
  | None => p_id o = ve_id e /\ p_reason o = None
  | Some vr => exists rid it r, p_reason o = Some (rid, it) /\
      item_for h (node_pos (vr_node vr)) it /\
      rules_choice h e r /\ renamed r (ve_id e, vr_id vr) (p_id o, rid)
  end.

(** ** Texts *)

(** File names in which no colon is followed by a digit (drive letters are fine). *)
Fixpoint plain_file (f : str) : Prop :=
  match f with
  | a :: f' => a <> newline /\
               (a = colon -> match f' with b :: _ => digit b = false | [] => True end) /\ plain_file f'
  | [] => True
  end.

Definition one_line (m : str) : Prop := ~ In newline m.

(** A message of the type checker: file, line, and optionally the column and then
    optionally the end position. *)
Definition type_message (f : str) (l : N) (c : option (N * option (N * N))) (msg : str) : str :=
  f ++ lit ":" ++ dec l ++
  match c with
  | None => []
  | Some (c, e) => lit ":" ++ dec c ++
      match e with None => [] | Some (el, ec) => lit ":" ++ dec el ++ lit ":" ++ dec ec end
  end ++ lit ": error: " ++ msg.

(** ** Duplicates *)

(** The elements of [l] at those indices [i] at which no earlier element is equal
    (with respect to [eqv]), in order. *)
Fixpoint first_occurrences_from {A} (eqv : A -> A -> bool) (l : list A) (i n : nat) : list A :=
  match n with
  | O => []
  | S n' =>
      match nth_error l i with
      | None => []
      | Some x =>
          (if existsb (eqv x) (firstn i l) then [] else [x]) ++
          first_occurrences_from eqv l (S i) n'
      end
  end.
Definition first_occurrences {A} (eqv : A -> A -> bool) (l : list A) : list A :=
  first_occurrences_from eqv l 0 (length l).
