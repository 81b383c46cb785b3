(** Model of the collection of contract clauses (analyzer.py) and of the selection of the
    statements that are translated (lib/util.py get_body_indices and its uses).

    Simplifications: expressions are represented by the clauses that occur in them; the
    tests of if and while contain none; the dictionary of loop invariants, whose keys are
    loops, is read off the loop itself; Exsures clauses are a list instead of a dictionary
    from exceptions to lists; the module level is not modelled. *)
From Coq Require Import List Arith Bool.
From Verif Require Import ClauseSpec.
Import ListNotations.

(** An argument of a clause: its name and the clauses that occur in it. *)
Definition arg := (nat * list clause)%type.
Record acc := { a_pre : list arg; a_post : list arg; a_exc : list arg; a_dec : list arg; a_inv : list arg }.
Definition none : acc := {| a_pre := []; a_post := []; a_exc := []; a_dec := []; a_inv := [] |}.
Definition join (a b : option acc) : option acc :=
  match a, b with
  | Some a, Some b =>
      Some {| a_pre := a_pre a ++ a_pre b; a_post := a_post a ++ a_post b; a_exc := a_exc a ++ a_exc b;
              a_dec := a_dec a ++ a_dec b; a_inv := a_inv a ++ a_inv b |}
  | _, _ => None
  end.
Definition join_all (l : list (option acc)) : option acc := fold_right join (Some none) l.

Section Fun.
  Variable f_pure f_inline : bool.

  (** visit_Call (analyzer.py 1205-1248) on a call of a clause; None: an exception.
      [inl]: is current_loop_invariant set? *)
  Definition visit_clause (inl : bool) (k : kind) (x : arg) : option acc :=
    if f_inline && negb (kind_eqb k KInv) then None                              (* 1212-1213 *)
    else
      match k with
      | KReq => Some {| a_pre := [x]; a_post := []; a_exc := []; a_dec := []; a_inv := [] |}   (* 1215-1217 *)
      | KEns => Some {| a_pre := []; a_post := [x]; a_exc := []; a_dec := []; a_inv := [] |}   (* 1218-1233 *)
      | KDec => if f_pure then Some {| a_pre := []; a_post := []; a_exc := []; a_dec := [x]; a_inv := [] |}
                else None                                                        (* 1234-1238 *)
      | KExs => Some {| a_pre := []; a_post := []; a_exc := [x]; a_dec := []; a_inv := [] |}   (* 1239-1244 *)
      | KInv => if inl then Some {| a_pre := []; a_post := []; a_exc := []; a_dec := []; a_inv := [x] |}
                else None                                                        (* 1245-1249 *)
      end.
  Definition visit_inner (inl : bool) (cs : list clause) : option acc :=
    join_all (map (fun c => visit_clause inl (fst c) (snd c, [])) cs).

  (** visit (visit_default 458-467; visit_loop 913-931; IOExists 905-908, 922-925). The
      call of a method is no clause: 1210 asks for a name. *)
  Fixpoint visit (inl : bool) (s : stmt) : option acc :=
    match s with
    | Doc | Global | Call _ _ => Some none
    | Exists cs => visit_inner inl cs
    | Clause k i inner => join (visit_clause inl k (i, inner)) (visit_inner inl inner)
    | Plain _ inner => visit_inner inl inner
    | Block _ bs => join_all (map (fun b => join_all (map (visit inl) b)) bs)
    | Loop _ b o =>
        match join (join_all (map (visit true) b)) (join_all (map (visit true) o)) with
        | Some a => Some {| a_pre := a_pre a; a_post := a_post a; a_exc := a_exc a; a_dec := a_dec a; a_inv := [] |}
        | None => None
        end
    end.
  Definition visit_body (inl : bool) (b : list stmt) : option acc := join_all (map (visit inl) b).

  (** lib/util.py 176-214: the predicates go by the name of the function or method. *)
  Definition is_docstring (s : stmt) : bool := match s with Doc => true | _ => false end.
  Definition is_global (s : stmt) : bool := match s with Global => true | _ => false end.
  Definition is_io_existential (s : stmt) : bool := match s with Exists _ => true | _ => false end.
  Definition func_name (s : stmt) : option kind :=
    match s with Clause k _ _ => Some k | Call k _ => Some k | _ => None end.                (* 111-128 *)
  Definition has_name (k : kind) (s : stmt) : bool :=
    match func_name s with Some k' => kind_eqb k k' | None => false end.
  Definition is_invariant := has_name KInv.
  Definition is_pre := has_name KReq.
  Definition is_decreases := has_name KDec.
  Definition is_post := has_name KEns.
  Definition is_exception_decl := has_name KExs.

  Fixpoint count_while (p : stmt -> bool) (l : list stmt) : nat :=
    match l with [] => 0 | s :: l => if p s then S (count_while p l) else 0 end.
  (** One of the loops of get_body_indices. *)
  Definition skip (l : list stmt) (start : nat) (p : stmt -> bool) : nat := start + count_while p (skipn start l).
  (** get_body_indices (217-252) *)
  Definition body_indices (l : list stmt) : nat * nat :=
    let start := fold_left (skip l)
      [is_docstring; is_global; is_io_existential; is_invariant; is_pre; is_decreases; is_post; is_exception_decl] 0 in
    let last := length l in
    (start, if start =? last then last else last - count_while is_post (rev l)).
  Definition slice {A} (ix : nat * nat) (l : list A) : list A := firstn (snd ix - fst ix) (skipn (fst ix) l).

  Fixpoint sequence {A} (l : list (option (list A))) : option (list A) :=
    match l with
    | [] => Some []
    | Some x :: l => match sequence l with Some y => Some (x ++ y) | None => None end
    | None :: _ => None
    end.
  Fixpoint sequence1 {A} (l : list (option A)) : option (list A) :=
    match l with
    | [] => Some []
    | Some x :: l => match sequence1 l with Some y => Some (x :: y) | None => None end
    | None :: _ => None
    end.

  (** The arguments of clauses are translated as expressions (contract.py 76-80, method.py
      120-180): a clause in them is an exception (call.py 1396-1397). *)
  Definition translate_args (l : list arg) : option (list nat) :=
    sequence1 (map (fun x => match snd x with [] => Some (fst x) | _ => None end) l).

  (** translate_stmt, and translate_pure in pure functions. Loops (statement.py 787-880,
      1680-1757): the invariants, then the statements between the indices; of all other
      blocks every statement (statement.py 1066-1086, 967-997; method.py 865, 678). *)
  Fixpoint translate (s : stmt) : option (list act) :=
    match s with
    | Doc => Some []                                                             (* 1060-1062; pure.py 153-155 *)
    | Global => if f_pure then None else Some []                                 (* 414-415 *)
    | Exists _ => None
    | Clause _ _ _ => None                                                       (* call.py 1396-1397; pure.py 157-158 *)
    | Call k i => if f_pure then None else Some [ACall k i]                      (* pure.py 157-158 *)
    | Plain i inner => match inner with [] => Some [ADo i] | _ => None end
    | Block i bs =>
        match sequence1 (map (fun b => sequence (map translate b)) bs) with Some xs => Some [ABlock i xs] | None => None end
    | Loop i b o =>
        if f_pure then None
        else
          match join (visit_body true b) (visit_body true o) with
          | Some a =>
              match translate_args (a_inv a), sequence (slice (body_indices b) (map translate b)), sequence (map translate o) with
              | Some invs, Some b', Some o' => Some [ALoop i invs b' o']
              | _, _, _ => None
              end
          | None => None
          end
    end.
End Fun.

(** A function: visit_FunctionDef (analyzer.py 905-910), then translate_method or
    translate_function (method.py 294-357, 360-375, 516-528). None: the function is
    rejected; the statements are None if there is no body to verify. *)
Definition verify (f : func) : option (contract * option (list act)) :=
  match visit_body (pure f) (inline f) false (body f) with
  | None => None
  | Some a =>
      match translate_args (a_pre a), translate_args (a_post a), translate_args (a_exc a), translate_args (a_dec a) with
      | Some pre, Some post, Some exc, Some dec =>
          if pure f && negb (match exc with [] => true | _ => false end) then None      (* method.py 305-307 *)
          else
            let c := {| requires := pre; ensures := post; exsures := exc; decreases := dec |} in
            if contract_only f then Some (c, None)                                       (* 337-338, 594-599 *)
            else
              match sequence (slice (body_indices (body f)) (map (translate (pure f) (inline f)) (body f))) with
              | Some b => Some (c, Some b)                                               (* 340-347, 519-525 *)
              | None => None
              end
      | _, _, _, _ => None
      end
  end.
