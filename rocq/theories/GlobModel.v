(** Global variables: what is final, what the verifier assumes about it, and the
    permissions for the others. Values are integers; a condition is true if it is not 0.

    Simplifications: import statements are replaced by the order in which the modules
    run, and "from m import x" by a statement that runs after m (which names are found
    there is the subject of C31, C32 and C44). A from-import of a name that m itself
    imports is not modelled. Functions take no arguments and have no local variables. *)
From Coq Require Import List Bool Arith ZArith Lia.
Import ListNotations.
Local Open Scope nat_scope.

(** A name in the namespace of a module. *)
Definition key := (nat * nat)%type.
Definition key_dec (a b : key) : {a = b} + {a <> b}.
Proof. decide equality; apply Nat.eq_dec. Defined.
Definition key_eqb (a b : key) : bool := (fst a =? fst b) && (snd a =? snd b).

(** References to global variables: x, or m.x for a module m (expression.py 947-1010 and
    1116-1126). *)
Inductive ref := RName (x : nat) | RAttr (m x : nat).
Inductive expr := EInt (z : Z) | ERef (r : ref) | EAdd (a b : expr) | EEq (a b : expr) | ELt (a b : expr).

(** An assertion: Acc(r) for the references in the list, and a condition. *)
Record asrt := { acc : list ref; cond : expr }.

(** Statements of modules and functions. In functions, assignments to x are under the
    declaration "global x". *)
Inductive stmt :=
| SSkip
| SSeq (a b : stmt)
| SAssign (r : ref) (e : expr)
| SFrom (m x : nat)
| SIf (c : expr) (a b : stmt)
| SWhile (inv : asrt) (c : expr) (b : stmt)
| SFor (x : nat) (es : list expr) (inv : asrt) (b : stmt)
| SAssert (e : expr)
| SCall (f : nat).

Record fundef := { f_mod : nat; f_pre : asrt; f_post : asrt; f_body : stmt }.
Record prog := { mods : list (nat * stmt); funs : list (nat * fundef) }.

Fixpoint lookup {A : Type} (f : nat) (l : list (nat * A)) : option A :=
  match l with [] => None | (g, d) :: l' => if g =? f then Some d else lookup f l' end.

(** * Python *)

(** The namespaces of all modules. *)
Definition env := key -> option Z.
Definition upd {A : Type} (e : key -> A) (k : key) (a : A) : key -> A := fun k' => if key_eqb k' k then a else e k'.
Definition b2z (b : bool) : Z := if b then 1%Z else 0%Z.

(** A name is looked up in the namespace of the module in which it occurs, m.x in that of
    m; an assignment changes the same namespace. *)
Definition pykey (m0 : nat) (r : ref) : key := match r with RName x => (m0, x) | RAttr m x => (m, x) end.

Fixpoint eval (m0 : nat) (s : env) (e : expr) : option Z :=
  match e with
  | EInt z => Some z
  | ERef r => s (pykey m0 r)
  | EAdd a b => match eval m0 s a, eval m0 s b with Some x, Some y => Some (x + y)%Z | _, _ => None end
  | EEq a b => match eval m0 s a, eval m0 s b with Some x, Some y => Some (b2z (x =? y)%Z) | _, _ => None end
  | ELt a b => match eval m0 s a, eval m0 s b with Some x, Some y => Some (b2z (x <? y)%Z) | _, _ => None end
  end.
Fixpoint evals (m0 : nat) (s : env) (es : list expr) : option (list Z) :=
  match es with
  | [] => Some []
  | e :: es' => match eval m0 s e, evals m0 s es' with Some z, Some zs => Some (z :: zs) | _, _ => None end
  end.

(** An execution ends normally, or with an error (NameError, ImportError or a failing
    assertion); None: not enough fuel. *)
Inductive outcome := Done (s : env) | Fail (s : env).

Fixpoint exec (F : list (nat * fundef)) (n : nat) (m0 : nat) (p : stmt) (s : env) {struct n} : option outcome :=
  match n with
  | O => None
  | S n' =>
    match p with
    | SSkip => Some (Done s)
    | SSeq a b => match exec F n' m0 a s with Some (Done s') => exec F n' m0 b s' | o => o end
    | SAssign r e => match eval m0 s e with Some z => Some (Done (upd s (pykey m0 r) (Some z))) | None => Some (Fail s) end
    | SFrom m x => match s (m, x) with Some z => Some (Done (upd s (m0, x) (Some z))) | None => Some (Fail s) end
    | SIf c a b =>
        match eval m0 s c with
        | Some z => if (z =? 0)%Z then exec F n' m0 b s else exec F n' m0 a s
        | None => Some (Fail s)
        end
    | SWhile inv c b =>
        match eval m0 s c with
        | Some z => if (z =? 0)%Z then Some (Done s)
                    else match exec F n' m0 b s with Some (Done s') => exec F n' m0 (SWhile inv c b) s' | o => o end
        | None => Some (Fail s)
        end
    | SFor x es inv b =>
        match evals m0 s es with
        | Some zs => (fix each (zs : list Z) (s : env) : option outcome :=
                        match zs with
                        | [] => Some (Done s)
                        | z :: zs' => match exec F n' m0 b (upd s (m0, x) (Some z)) with
                                      | Some (Done s') => each zs' s'
                                      | o => o
                                      end
                        end) zs s
        | None => Some (Fail s)
        end
    | SAssert e =>
        match eval m0 s e with
        | Some z => if (z =? 0)%Z then Some (Fail s) else Some (Done s)
        | None => Some (Fail s)
        end
    | SCall f => match lookup f F with Some d => exec F n' (f_mod d) (f_body d) s | None => Some (Fail s) end
    end
  end.

(** The modules run one after the other, starting with empty namespaces. *)
Fixpoint run (F : list (nat * fundef)) (n : nat) (ms : list (nat * stmt)) (s : env) : option outcome :=
  match ms with
  | [] => Some (Done s)
  | (m, p) :: ms' => match exec F n m p s with Some (Done s') => run F n ms' s' | o => o end
  end.

(** * The analyzer *)

(** From-imports of a module. *)
Fixpoint froms (p : stmt) : list (nat * nat) :=
  match p with
  | SFrom m x => [(m, x)]
  | SSeq a b | SIf _ a b => froms a ++ froms b
  | SWhile _ _ b | SFor _ _ _ b => froms b
  | _ => []
  end.

(** The module from which the name x of module m0 is imported. *)
Definition from_of (P : prog) (m0 x : nat) : option nat :=
  option_map fst (find (fun i => snd i =? x) (flat_map (fun d => if fst d =? m0 then froms (snd d) else []) (mods P))).

(** lib/resolver.py 61-127 (get_target) and analyzer.py 1375-1384: a name that is imported
    from another module denotes the variable of that module, also when it is assigned. *)
Definition owner (P : prog) (k : key) : key :=
  match from_of P (fst k) (snd k) with Some m => (m, snd k) | None => k end.
Definition resolve (P : prog) (m0 : nat) (r : ref) : key := owner P (pykey m0 r).

(** analyzer.py 1193-1198 (track_access), 1389-1396 (names in modules, once), 1537-1546
    (names in functions, twice) and 1579-1584 (m.x, once): the recorded writes. *)
Fixpoint writes (P : prog) (infun : bool) (m0 : nat) (p : stmt) : list key :=
  match p with
  | SAssign (RName x) _ =>
      let v := resolve P m0 (RName x) in if infun then [v; v] else [v]
  | SAssign (RAttr m x) _ => [resolve P m0 (RAttr m x)]
  | SSeq a b | SIf _ a b => writes P infun m0 a ++ writes P infun m0 b
  | SWhile _ _ b => writes P infun m0 b
  | SFor x _ _ b =>
      let v := resolve P m0 (RName x) in (if infun then [v; v] else [v]) ++ writes P infun m0 b
  | _ => []
  end.
Definition mod_writes (P : prog) : list key := flat_map (fun d => writes P false (fst d) (snd d)) (mods P).
Definition fun_writes (P : prog) : list key := flat_map (fun d => writes P true (f_mod (snd d)) (f_body (snd d))) (funs P).
Definition all_writes (P : prog) : list key := mod_writes P ++ fun_writes P.

(** lib/program_nodes.py 1680-1686 (is_final). *)
Definition final (P : prog) (v : key) : bool := length (filter (key_eqb v) (all_writes P)) <=? 1.

(** analyzer.py 1384-1387: the value of a variable is that of the last assignment to it in
    a module. *)
Fixpoint assigned (P : prog) (m0 : nat) (p : stmt) : list (key * (nat * expr)) :=
  match p with
  | SAssign (RName x) e => [(resolve P m0 (RName x), (m0, e))]
  | SSeq a b | SIf _ a b => assigned P m0 a ++ assigned P m0 b
  | SWhile _ _ b | SFor _ _ _ b => assigned P m0 b
  | _ => []
  end.
Definition value (P : prog) (v : key) : option (nat * expr) :=
  option_map snd (find (fun d => key_eqb v (fst d)) (rev (flat_map (fun d => assigned P (fst d) (snd d)) (mods P)))).

(** * The Viper program *)

(** The references in an expression. *)
Fixpoint refs (e : expr) : list ref :=
  match e with EInt _ => [] | ERef r => [r] | EAdd a b | EEq a b | ELt a b => refs a ++ refs b end.

(** program.py 174-205 (create_global_var_function): the function of a final variable is
    equal to its value, unless that depends on the heap; other variables have a function
    without specification, the reference whose field holds the value. *)
Definition heap_dependent (P : prog) (m0 : nat) (e : expr) : bool :=
  existsb (fun r => negb (final P (resolve P m0 r))) (refs e).
Fixpoint ieval (P : prog) (I : key -> Z) (m0 : nat) (e : expr) : Z :=
  match e with
  | EInt z => z
  | ERef r => I (resolve P m0 r)
  | EAdd a b => (ieval P I m0 a + ieval P I m0 b)%Z
  | EEq a b => b2z (ieval P I m0 a =? ieval P I m0 b)%Z
  | ELt a b => b2z (ieval P I m0 a <? ieval P I m0 b)%Z
  end.
Definition axioms (P : prog) (I : key -> Z) : Prop :=
  forall v m0 e, final P v = true -> value P v = Some (m0, e) -> heap_dependent P m0 e = false ->
    I v = ieval P I m0 e.

(** Heap, permissions (all or nothing) and the sets of defined names of the modules. The
    references are keys again; [hold] is the interpretation of the functions of variables
    that are not final. *)
Record vstate := { hp : key -> Z; pm : key -> bool; nm : key -> bool }.

Section Wp.
  Variable P : prog.
  Variable I : key -> Z.
  Variable hold : key -> key.

  (** expression.py 912-945 (translate_global_var_reference): in the main method, the
      reads check that the name is defined; final variables are function applications,
      the others field accesses, which need permission. None: a verification error. *)
  Fixpoint veval (main : bool) (m0 : nat) (st : vstate) (e : expr) : option Z :=
    match e with
    | EInt z => Some z
    | ERef r =>
        let v := resolve P m0 r in
        if main && negb (nm st (pykey m0 r)) then None
        else if final P v then Some (I v)
        else if pm st (hold v) then Some (hp st (hold v)) else None
    | EAdd a b => match veval main m0 st a, veval main m0 st b with Some x, Some y => Some (x + y)%Z | _, _ => None end
    | EEq a b => match veval main m0 st a, veval main m0 st b with Some x, Some y => Some (b2z (x =? y)%Z) | _, _ => None end
    | ELt a b => match veval main m0 st a, veval main m0 st b with Some x, Some y => Some (b2z (x <? y)%Z) | _, _ => None end
    end.
  Fixpoint vevals (main : bool) (m0 : nat) (st : vstate) (es : list expr) : option (list Z) :=
    match es with
    | [] => Some []
    | e :: es' => match veval main m0 st e, vevals main m0 st es' with Some z, Some zs => Some (z :: zs) | _, _ => None end
    end.

  (** contract.py 262-285 (translate_acc_global): Acc of a final variable is rejected. *)
  Definition locs (m0 : nat) (a : asrt) : option (list key) :=
    let vs := map (resolve P m0) (acc a) in
    if existsb (final P) vs then None else Some (map hold vs).

  Fixpoint give (ls : list key) (p : key -> bool) : option (key -> bool) :=
    match ls with [] => Some p | l :: ls' => if p l then None else give ls' (upd p l true) end.
  Fixpoint take (ls : list key) (p : key -> bool) : option (key -> bool) :=
    match ls with [] => Some p | l :: ls' => if p l then take ls' (upd p l false) else None end.
  Definition only (ls : list key) : key -> bool := fun l => existsb (key_eqb l) ls.

  (** Viper's exhale and inhale of an assertion. Assertions are self-framing: the
      condition may read only what the assertion has permission to. The permissions
      that remain are passed on; inhaling a permission twice is assumed not to happen. *)
  Definition holds_in (main : bool) (m0 : nat) (ls : list key) (st : vstate) (e : expr) : option Z :=
    veval main m0 {| hp := hp st; pm := only ls; nm := nm st |} e.
  Definition exhale (main : bool) (m0 : nat) (a : asrt) (st : vstate) (Q : vstate -> Prop) : Prop :=
    match locs m0 a with
    | None => False
    | Some ls =>
        match take ls (pm st), holds_in main m0 ls st (cond a) with
        | Some p, Some z => z <> 0%Z /\ Q {| hp := hp st; pm := p; nm := nm st |}
        | _, _ => False
        end
    end.
  Definition inhale (main : bool) (m0 : nat) (a : asrt) (st : vstate) (Q : vstate -> Prop) : Prop :=
    match locs m0 a with
    | None => False
    | Some ls =>
        match give ls (pm st) with
        | None => True
        | Some p =>
            match holds_in main m0 ls st (cond a) with
            | Some z => z <> 0%Z -> Q {| hp := hp st; pm := p; nm := nm st |}
            | None => False
            end
        end
    end.

  (** common.py 322-333: names that become defined. *)
  Definition define (main : bool) (k : key) (st : vstate) : vstate :=
    {| hp := hp st; pm := pm st; nm := if main then upd (nm st) k true else nm st |}.
  Definition last_name (r : ref) : nat := match r with RName x => x | RAttr _ x => x end.

  (** statement.py 1385-1464 (_assign_single_value): an assignment to a final variable
      is an inhaled equality, any other one a field assignment. In the main method the
      name becomes defined in the current module. *)
  Definition assign (main : bool) (m0 : nat) (r : ref) (z : Z) (st : vstate) (Q : vstate -> Prop) : Prop :=
    let v := resolve P m0 r in
    if final P v then I v = z -> Q (define main (m0, last_name r) st)
    else pm st (hold v) = true /\
         Q (define main (m0, last_name r) {| hp := upd (hp st) (hold v) z; pm := pm st; nm := nm st |}).

  (** The states after a loop or a call: what is not framed by a held permission is
      unknown; in the main method, names of the current module may have become defined
      (statement.py 722-737). *)
  Definition havoced (m0 : nat) (st st' : vstate) : Prop :=
    (forall l, pm st l = true -> hp st' l = hp st l) /\ pm st' = pm st /\
    (forall k, nm st k = true -> nm st' k = true) /\
    (forall k, fst k <> m0 -> nm st' k = nm st k).
  Definition nothing (st : vstate) : vstate := {| hp := hp st; pm := fun _ => false; nm := nm st |}.

  (** The references in a statement or assertion, for the dependencies of functions
      (expression.py 937-943). *)
  Definition asrt_refs (a : asrt) : list ref := acc a ++ refs (cond a).
  Fixpoint stmt_refs (p : stmt) : list ref :=
    match p with
    | SSkip | SFrom _ _ | SCall _ => []
    | SSeq a b => stmt_refs a ++ stmt_refs b
    | SAssign r e => refs e
    | SIf c a b => refs c ++ stmt_refs a ++ stmt_refs b
    | SWhile inv c b => refs (cond inv) ++ refs c ++ stmt_refs b
    | SFor x es inv b => flat_map refs es ++ refs (cond inv) ++ stmt_refs b
    | SAssert e => refs e
    end.
  Definition deps (d : fundef) : list key :=
    map (pykey (f_mod d)) (refs (cond (f_pre d)) ++ refs (cond (f_post d)) ++ stmt_refs (f_body d)).

  (** Weakest preconditions of the translated statements (statement.py). *)
  Fixpoint wp (main : bool) (m0 : nat) (p : stmt) (st : vstate) (Q : vstate -> Prop) {struct p} : Prop :=
    match p with
    | SSkip => Q st
    | SSeq a b => wp main m0 a st (fun st' => wp main m0 b st' Q)
    | SAssign r e => match veval main m0 st e with Some z => assign main m0 r z st Q | None => False end
    (** 201-264: only in the main method; the name must be defined in the other module. *)
    | SFrom m x => main = true /\ nm st (m, x) = true /\ Q (define main (m0, x) st)
    | SIf c a b =>
        match veval main m0 st c with
        | Some z => if (z =? 0)%Z then wp main m0 b st Q else wp main m0 a st Q
        | None => False
        end
    | SWhile inv c b =>
        exhale main m0 inv st (fun fr =>
          forall st', havoced m0 fr st' ->
            inhale main m0 inv (nothing st') (fun st1 =>
              match veval main m0 st1 c with
              | Some z => (z <> 0)%Z -> wp main m0 b st1 (fun st2 => exhale main m0 inv st2 (fun _ => True))
              | None => False
              end) /\
            inhale main m0 inv st' (fun st1 => veval main m0 st1 c = Some 0%Z -> Q st1))
    (** 759-893 and 653-655: the target is assigned before the loop and at the end of each
        iteration, and the invariant contains that it is equal to the current element,
        before the conditions of the user: this needs a permission unless it is final. *)
    | SFor x es inv b =>
        match vevals main m0 st es with
        | None => False
        | Some [] => exhale main m0 inv st (fun fr => forall st', havoced m0 fr st' -> inhale main m0 inv st' Q)
        | Some (z :: zs) =>
            assign main m0 (RName x) z st (fun st0 =>
              final P (resolve P m0 (RName x)) = true /\
              exhale main m0 inv st0 (fun fr =>
                forall st', havoced m0 fr st' ->
                  (forall k y, nth_error (z :: zs) k = Some y -> I (resolve P m0 (RName x)) = y ->
                    inhale main m0 inv (nothing st') (fun st1 =>
                      wp main m0 b st1 (fun st2 =>
                        match nth_error (z :: zs) (S k) with
                        | Some y' => assign main m0 (RName x) y' st2 (fun st3 => exhale main m0 inv st3 (fun _ => True))
                        | None => exhale main m0 inv st2 (fun _ => True)
                        end))) /\
                  (I (resolve P m0 (RName x)) = last (z :: zs) 0%Z -> inhale main m0 inv st' Q)))
        end
    | SAssert e => exists z, veval main m0 st e = Some z /\ z <> 0%Z /\ Q st
    (** Calls of methods: dependencies (common.py 400-447), precondition, postcondition. *)
    | SCall f =>
        match lookup f (funs P) with
        | None => False
        | Some d =>
            (main = true -> forall k, In k (deps d) -> nm st k = true) /\
            exhale false (f_mod d) (f_pre d) st (fun fr =>
              forall h', (forall l, pm fr l = true -> h' l = hp fr l) ->
                inhale false (f_mod d) (f_post d) {| hp := h'; pm := pm fr; nm := nm fr |} Q)
        end
    end.

  Fixpoint wp_mods (ms : list (nat * stmt)) (st : vstate) : Prop :=
    match ms with [] => True | (m, p) :: ms' => wp true m p st (fun st' => wp_mods ms' st') end.

  (** method.py 908-975 (_initialize_main_state): permissions for all variables that are
      not final, no names defined. *)
  Definition mutable : list key := filter (fun v => negb (final P v)) (nodup key_dec (all_writes P)).
  Definition main_ok : Prop :=
    forall h p, give (map hold mutable) (fun _ => false) = Some p ->
      wp_mods (mods P) {| hp := h; pm := p; nm := fun _ => false |}.
  Definition fun_ok (d : fundef) : Prop :=
    forall h,
      inhale false (f_mod d) (f_pre d) {| hp := h; pm := fun _ => false; nm := fun _ => false |} (fun st =>
        wp false (f_mod d) (f_body d) st (fun st' => exhale false (f_mod d) (f_post d) st' (fun _ => True))).
End Wp.

(** The program verifies. *)
Definition verifies (P : prog) : Prop :=
  forall I hold, axioms P I ->
    main_ok P I hold /\ (forall f d, In (f, d) (funs P) -> fun_ok P I hold d).
