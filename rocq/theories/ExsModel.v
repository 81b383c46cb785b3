(** Model of contracts with exceptions: analyzer.py (Exsures), method.py (translate_method,
    _translate_posts, _translate_exceptional_posts), statement.py (Raise, Try), expression.py
    (create_exception_catchers), common.py (get_error_var), call.py (translate_normal_call),
    program.py (override checks).

    Simplifications: no for loops, no else of loops, no finally and no with (C21, C22 are about those); handlers
    have no names; code of handlers is nested in the code of the try statement instead of
    being placed at the end of the method (C21 is about the jumps); all pure expressions are
    functions on states; a variable that is created for the exception of one call is never
    read after that call, so they are one variable here; verification of a Viper method is
    the weakest precondition of its body. Inlined methods are not modelled. *)
From Coq Require Import List Bool Arith.
From Verif Require Import ExsSpec.
Import ListNotations.

Section Trans.
  Variable St : Type.
  Variable Exn : Type.
  Variable isa : Exn -> nat -> bool.
  Variable meth : nat -> method St Exn.

  (** declared_exceptions: an ordered dictionary from classes to lists of conditions
      (analyzer.py 1239-1244, program_nodes.py 1081). *)
  Definition cond := St -> Exn -> St -> bool.
  Definition dict := list (nat * list cond).
  Fixpoint mem (c : nat) (d : dict) : bool :=
    match d with [] => false | (c', _) :: d => (c =? c') || mem c d end.
  Fixpoint append_to (c : nat) (p : cond) (d : dict) : dict :=
    match d with
    | [] => []
    | (c', ps) :: d => if c =? c' then (c', ps ++ [p]) :: d else (c', ps) :: append_to c p d
    end.
  Definition add_exsures (d : dict) (x : nat * cond) : dict :=
    let d := if mem (fst x) d then d else d ++ [(fst x, [])] in append_to (fst x) (snd x) d.
  Definition declared (k : contract St Exn) : dict := fold_left add_exsures (exsures k) [].
  Definition declares (k : contract St Exn) : bool := match declared k with [] => false | _ => true end.

  (** Variables for exceptions: of the method, of a try block, of one call. *)
  Inductive var := Merr | Terr (i : nat) | Fresh.
  Definition var_eqb (x y : var) : bool :=
    match x, y with
    | Merr, Merr | Fresh, Fresh => true
    | Terr i, Terr j => i =? j
    | _, _ => false
    end.
  Definition vals := var -> option Exn.          (* None: null *)
  Definition upd (ev : vals) (x : var) (v : option Exn) : vals := fun y => if var_eqb x y then v else ev y.

  (** Postconditions in Viper, of the call state, the final state and the value of the
      error variable. _translate_posts (method.py 130-164) *)
  Definition vpost := St -> St -> option Exn -> bool.
  Definition translate_posts (k : contract St Exn) : list vpost :=
    map (fun p s s' err =>
           if declares k then implb (match err with None => true | Some _ => false end) (p s s')   (* 159-162 *)
           else p s s') (ensures k).
  (** _translate_exceptional_posts (166-219) *)
  Definition has_type (c : nat) (err : option Exn) : bool :=
    match err with Some e => isa e c | None => false end.
  Definition error (err : option Exn) : bool := match err with Some _ => true | None => false end.
  Definition translate_exceptional_posts (k : contract St Exn) : list vpost :=
    flat_map (fun x =>
      map (fun p s s' err =>                                                          (* 190-203 *)
             implb (error err && has_type (fst x) err)
                   (match err with Some e => p s e s' | None => false end)) (snd x)) (declared k)
    ++ match map (fun x => has_type (fst x)) (declared k) with
       | [] => []
       | t :: ts =>                                                                   (* 206-217 *)
           let any := fold_left (fun a t => fun err => a err || t err) ts t in
           [fun _ _ err => implb (error err) (any err)]
       end.
  (** extract_contract (222-): both lists. *)
  Definition posts (k : contract St Exn) : list vpost := translate_posts k ++ translate_exceptional_posts k.
  Definition posts_hold (k : contract St Exn) (s s' : St) (err : option Exn) : Prop :=
    Forall (fun p => p s s' err = true) (posts k).

  (** Viper code. *)
  Inductive label := LEnd | LHandler (i k : nat) | LBreak | LCont.   (* of the innermost loop *)
  Inductive vst :=
  | VSkip
  | VDo (f : St -> St)
  | VAssert (c : St -> bool)
  | VSeq (a b : vst)
  | VIf (c : St -> bool) (a b : vst)
  | VNew (x : var) (e : St -> Exn)                (* x := a new exception *)
  | VMove (x y : var)                             (* x := y *)
  | VIfNotNull (x : var) (a b : vst)
  | VIfIsa (x : var) (c : nat) (a b : vst)
  | VGoto (l : label)
  | VFalse                                        (* exhale false *)
  | VCall (m : nat) (enter : St -> St) (leave : St -> St -> St) (target : option var)
  | VTry (i : nat) (b : vst) (hs : vhs) (orelse : vst)   (* code with labels LHandler i 0, 1, ... *)
  | VLoop (inv : St -> bool) (frame : St -> St -> Prop) (c : St -> bool) (b : vst)   (* with label LCont at the end of the body and LBreak after the loop *)
  | VNull (x : var)                               (* x := null *)
  with vhs := VHNil | VHCons (h : vst) (hs : vhs).

  Section Method.
    (** The contract of the method that is translated. *)
    Variable k : contract St Exn.

    (** The try blocks around a statement, innermost first: number and handled classes
        (get_surrounding_try_blocks, lib/util.py 159-173). *)
    Definition tries := list (nat * list nat).

    (** get_error_var (common.py 846-865) *)
    Definition error_var (ts : tries) : var :=
      match ts with
      | (i, _) :: _ => Terr i                                                         (* 855-859 *)
      | [] => if declares k then Merr else Fresh                                      (* 860-865 *)
      end.

    (** create_exception_catchers (expression.py 800-864) *)
    Definition uncaught (x : var) : vst :=
      if declares k then VSeq (VMove Merr x) (VGoto LEnd)                             (* 820-825 *)
      else VSeq VFalse (VGoto LEnd).                                                  (* 826-835 *)
    Fixpoint number (i n : nat) (cs : list nat) : list (nat * label) :=
      match cs with [] => [] | c :: cs => (c, LHandler i n) :: number i (S n) cs end.
    (** 837-850: each new case is put in front. *)
    Definition cases (ts : tries) : list (nat * label) :=
      fold_left (fun cases c => c :: cases) (flat_map (fun t => number (fst t) 0 (snd t)) ts) [].
    (** 852-867 *)
    Definition catchers (x : var) (ts : tries) : vst :=
      VIfNotNull x
        (fold_left (fun result c => VIfIsa x (fst c) (VGoto (snd c)) result) (cases ts) (uncaught x))
        VSkip.

    Fixpoint classes (hs : handlers St Exn) : list nat :=
      match hs with HNil => [] | HCons c _ hs => c :: classes hs end.

    (** translate_stmt *)
    Fixpoint tr (ts : tries) (s : stmt St Exn) : vst :=
      match s with
      | SSkip => VSkip
      | SDo f => VDo f
      | SAssert c => VAssert c
      | SSeq a b => VSeq (tr ts a) (tr ts b)
      | SIf c a b => VIf c (tr ts a) (tr ts b)                                        (* statement.py 1066-1086 *)
      | SReturn f => VSeq (VDo f) (VGoto LEnd)
      | SRaise e => VSeq (VNew (error_var ts) e) (catchers (error_var ts) ts)         (* statement.py 999-1032 *)
      | SCall m _ en lv =>                                                            (* call.py 710-735 *)
          if declares (sig (meth m))
          then VSeq (VCall m en lv (Some (error_var ts))) (catchers (error_var ts) ts)
          else VCall m en lv None
      | STry b hs oe =>                                                               (* statement.py 967-997; analyzer.py 1913-1950 *)
          VTry (length ts) (tr ((length ts, classes hs) :: ts) b) (tr_h ts hs) (tr ts oe)
      | SWhile inv fr c b =>                                                          (* statement.py 1688-1737, 1756-1776 *)
          VSeq (VLoop inv fr c (tr ts b)) (if declares k then VNull Merr else VSkip)
      | SBreak => VGoto LBreak                                                        (* 1778-1782 *)
      | SContinue => VGoto LCont
      end
    with tr_h (ts : tries) (hs : handlers St Exn) : vhs :=
      match hs with HNil => VHNil | HCons _ h hs => VHCons (tr ts h) (tr_h ts hs) end.
  End Method.

  (** The variables that Viper forgets in a loop: those that are assigned in the body. Which
      assignments count if they are followed by a jump out of the loop depends on the back
      end, so this is left open. *)
  Variable havocs : vst -> var -> bool.
  (** What Viper verifies: the code does not fail, and what holds at the end and at labels. *)
  Definition assn := St -> vals -> Prop.
  Fixpoint wp (v : vst) (L : label -> assn) (Q : assn) : assn := fun s ev =>
    match v with
    | VSkip => Q s ev
    | VDo f => Q (f s) ev
    | VAssert c => c s = true /\ Q s ev
    | VSeq a b => wp a L (wp b L Q) s ev
    | VIf c a b => if c s then wp a L Q s ev else wp b L Q s ev
    | VNew x e => Q s (upd ev x (Some (e s)))
    | VMove x y => Q s (upd ev x (ev y))
    | VIfNotNull x a b => match ev x with Some _ => wp a L Q s ev | None => wp b L Q s ev end
    | VIfIsa x c a b => if has_type c (ev x) then wp a L Q s ev else wp b L Q s ev
    | VGoto l => L l s ev
    | VFalse => False
    | VCall m en lv t =>
        holds (requires (sig (meth m))) (en s) /\
        forall s' err, posts_hold (sig (meth m)) (en s) s' err ->
          Q (lv s s') (match t with Some x => upd ev x err | None => ev end)
    | VTry i b hs oe =>
        wp b (fun l => match l with
                       | LHandler j n => if i =? j then wp_h hs L Q n else L l
                       | _ => L l
                       end) (wp oe L Q) s ev
    | VLoop inv fr c b =>
        inv s = true /\
        forall s1 ev1, fr s s1 -> inv s1 = true -> (forall x, havocs b x = false -> ev1 x = ev x) ->
          if c s1
          then wp b (fun l => match l with
                              | LBreak => Q
                              | LCont => fun s2 _ => inv s2 = true
                              | _ => L l
                              end) (fun s2 _ => inv s2 = true) s1 ev1
          else Q s1 ev1
    | VNull x => Q s (upd ev x None)
    end
  with wp_h (hs : vhs) (L : label -> assn) (Q : assn) (n : nat) : assn := fun s ev =>
    match hs, n with
    | VHNil, _ => False
    | VHCons h _, O => wp h L Q s ev
    | VHCons _ hs, S n => wp_h hs L Q n s ev
    end.

  (** translate_method (method.py 560-619): the error variable is null at the start; the
      postconditions are checked at the end label. *)
  Definition verified (m : method St Exn) : Prop :=
    match body m with
    | None => True                                                                    (* 591-597 *)
    | Some b =>
        forall s ev, holds (requires (sig m)) s ->
          let ends s' (ev' : vals) := posts_hold (sig m) s s' (ev' Merr) in
          wp (tr (sig m) [] b) (fun l => match l with LEnd => ends | _ => fun _ _ => False end) ends
             s (upd ev Merr None)
    end.

  (** create_override_check (program.py 281-352), _create_override_check_body_impure
      (354-413) and _check_override_validity (415-435), [sub_cls]: the subclass relation.
      The result variable of the check for the exception is not assigned if the overriding
      method declares none (374-377). *)
  Variable sub_cls : nat -> nat -> bool.
  Definition valid_exceptions (sub sup : contract St Exn) : bool :=
    forallb (fun x => existsb (fun y => sub_cls (fst x) (fst y)) (declared sup)) (declared sub).
  Definition override_verified (sub sup : contract St Exn) : Prop :=
    valid_exceptions sub sup = true /\
    forall s err0, holds (requires sup) s ->
      holds (requires sub) s /\
      forall s' err, posts_hold sub s s' err ->
        posts_hold sup s s' (if declares sub then err else err0).

  Definition program_verified : Prop :=
    (forall m, verified (meth m)) /\
    (forall m m', overrides (meth m) = Some m' -> override_verified (sig (meth m)) (sig (meth m'))).
End Trans.
