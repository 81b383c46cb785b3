(** C19: [match] statements choose the case Python chooses, with the bindings
    Python makes. *)
From Coq Require Import List Bool Arith ZArith.
From Verif Require Import ExprSpec MatchSpec MatchModel MatchProofs.
Import ListNotations.

(** For every list of cases (distinct names per pattern, no capture below an
    or-pattern) whose guards look only at names that are not affected by failed
    guards or keyword captures: the generated conditional is well defined, chooses
    exactly the case Python chooses, gives every name captured by that case its
    Python value, marks exactly these names as defined, and leaves all other
    names, except those of guarded cases, with the value they have in Python. *)
Theorem C19_match_choice : forall C h v l cs,
  Forall (case_ok C) cs -> guards_ok [] cs ->
  exists l' defs,
    run_match C h v l (tr_cases 0 cs) = Some (fst (py_cases C h v 0 l cs), l', defs) /\
    (forall x, ~ In x (guarded_names cs) -> l' x = snd (py_cases C h v 0 l cs) x) /\
    match fst (py_cases C h v 0 l cs) with
    | None => defs = []
    | Some k => exists c, nth_error cs k = Some c /\
        (forall x, In x defs <-> In x (captures (c_pat c))) /\
        forall x, In x (captures (c_pat c)) -> l' x = snd (py_cases C h v 0 l cs) x
    end.
Proof. exact c19_match_choice. Qed.
Print Assumptions C19_match_choice.

(** Without guards nothing is lost: same case and the same value for every
    local variable. *)
Theorem C19_match_unguarded : forall C h v l cs,
  Forall (case_ok C) cs -> Forall (fun c => c_guard c = None) cs ->
  exists l' defs,
    run_match C h v l (tr_cases 0 cs) = Some (fst (py_cases C h v 0 l cs), l', defs) /\
    forall x, l' x = snd (py_cases C h v 0 l cs) x.
Proof. exact c19_match_unguarded. Qed.
Print Assumptions C19_match_unguarded.

(** The generated condition of a pattern alone is well defined and true exactly
    if the pattern matches; this also holds for or-patterns with captures. *)
Theorem C19_pattern_condition : forall C h v l p,
  kws_ok C p ->
  cond_val C h v l (tr_cond p Subj)
  = Some (match py_match C h p v with Some _ => true | None => false end).
Proof. exact c19_pattern_condition. Qed.
Print Assumptions C19_pattern_condition.

(** Concrete cases. *)
Definition demo_classes : classes :=
  {| isinst := fun v c => match v, c with
                          | VRef r, 10 => Nat.eqb r 1
                          | VRef r, 11 => true
                          | VInt _, 20 => true
                          | VBool _, 20 => true
                          | _, _ => false
                          end;
     eqv := fun v w => match v, w with
                       | VInt a, VInt b => Z.eqb a b
                       | VBool a, VBool b => Bool.eqb a b
                       | VInt a, VBool b => Z.eqb a (if b then 1 else 0)
                       | VBool b, VInt a => Z.eqb a (if b then 1 else 0)
                       | _, _ => false
                       end |}.
Definition demo_heap : heap := fun r f => VInt (Z.of_nat (10 * r + f)).
Definition demo_locals : locals := fun x => VInt (Z.of_nat (100 + x)).

(** [case True: ...; case C(f=1 as a): ...; case y if y: ...; case _: ...] *)
Definition demo_cases : list mcase :=
  [ {| c_pat := PBool true; c_guard := None |};
    {| c_pat := PClass 10 [(1, PAs (PVal (VInt 11)) 0); (2, PCap 1)]; c_guard := None |};
    {| c_pat := PCap 2; c_guard := Some (fun l => truthy (l 2)) |};
    {| c_pat := POr PNone [PVal (VInt 0)]; c_guard := None |} ].

Example C19_demo_ok : Forall (case_ok demo_classes) demo_cases /\ guards_ok [] demo_cases.
Proof.
  split.
  - repeat constructor; simpl; auto; try (intros [H|H]; [discriminate|contradiction]); try (now intros []).
    intros _ v. destruct v; simpl; try discriminate. intros _. eauto.
  - simpl. split; [|exact I]. intros l l' H. rewrite (H 2); auto.
Qed.
Example C19_demo_run :
  fst (py_cases demo_classes demo_heap (VRef 1) 0 demo_locals demo_cases) = Some 1 /\
  fst (py_cases demo_classes demo_heap (VInt 1) 0 demo_locals demo_cases) = Some 2 /\
  fst (py_cases demo_classes demo_heap (VInt 0) 0 demo_locals demo_cases) = Some 3 /\
  fst (py_cases demo_classes demo_heap (VBool true) 0 demo_locals demo_cases) = Some 0.
Proof. repeat split. Qed.

(** Bindings made by a case whose guard fails are lost:
    [match 5: case x if x < 0: ...; case _: use(x)] reads the old [x]. *)
Theorem C19_failed_guard_binding_refuted : exists C h v l cs x l' defs,
  Forall (case_ok C) cs /\ guards_ok [] cs /\
  run_match C h v l (tr_cases 0 cs) = Some (fst (py_cases C h v 0 l cs), l', defs) /\
  l' x <> snd (py_cases C h v 0 l cs) x.
Proof.
  exists demo_classes, demo_heap, (VInt 5), demo_locals,
    [ {| c_pat := PCap 3; c_guard := Some (fun l => match l 3 with VInt z => Z.ltb z 0 | _ => false end) |};
      {| c_pat := PWild; c_guard := None |} ], 3, demo_locals, [].
  split; [|split; [|split]].
  - repeat constructor; simpl; auto.
  - simpl. split; [|exact I]. intros l l' H. rewrite (H 3); auto.
  - reflexivity.
  - discriminate.
Qed.
Print Assumptions C19_failed_guard_binding_refuted.

(** Captures below an or-pattern are never assigned: in
    [match o: case C(f=x) | D(f=x): use(x)] the body reads the old [x].  (Python
    demands that all alternatives bind the same names, and they do.) *)
Theorem C19_or_capture_refuted : exists C h v l cs x l' defs,
  Forall (fun c => kws_ok C (c_pat c)) cs /\
  Forall (fun c => c_guard c = None) cs /\
  run_match C h v l (tr_cases 0 cs) = Some (fst (py_cases C h v 0 l cs), l', defs) /\
  fst (py_cases C h v 0 l cs) = Some 0 /\
  l' x <> snd (py_cases C h v 0 l cs) x.
Proof.
  exists demo_classes, demo_heap, (VRef 1), demo_locals,
    [ {| c_pat := POr (PClass 10 [(1, PCap 3)]) [PClass 11 [(1, PCap 3)]]; c_guard := None |} ], 3, demo_locals, [].
  split; [|split; [|split; [|split]]].
  - repeat constructor; simpl; auto;
    intros _ v; destruct v; simpl; try discriminate; intros _; eauto.
  - repeat constructor.
  - reflexivity.
  - reflexivity.
  - discriminate.
Qed.
Print Assumptions C19_or_capture_refuted.

(** A guard that uses a name captured from an attribute reads the old value of
    that name, and the wrong case is chosen:
    [match o: case C(f=x) if x == 11: ...]. *)
Theorem C19_keyword_guard_refuted : exists C h v l cs,
  Forall (case_ok C) cs /\
  fst (py_cases C h v 0 l cs) = Some 0 /\
  exists l' defs, run_match C h v l (tr_cases 0 cs) = Some (Some 1, l', defs).
Proof.
  exists demo_classes, demo_heap, (VRef 1), demo_locals,
    [ {| c_pat := PClass 10 [(1, PCap 3)];
         c_guard := Some (fun l => match l 3 with VInt z => Z.eqb z 11 | _ => false end) |};
      {| c_pat := PWild; c_guard := None |} ].
  split; [|split].
  - repeat constructor; simpl; auto.
    intros _ v. destruct v; simpl; try discriminate. intros _. eauto.
  - reflexivity.
  - eexists; eexists; reflexivity.
Qed.
Print Assumptions C19_keyword_guard_refuted.
