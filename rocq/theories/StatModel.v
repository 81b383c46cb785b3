(** Static fields: attributes of classes that are assigned in the class body. Values are
    integers; a condition is true if it is not 0.

    Simplifications: a program is a list of statements of one module, without branches and
    loops; classes have at most one superclass and only static fields; global variables
    are assigned once (C62 treats the others). Names of classes, variables and objects
    are different kinds of names. *)
From Coq Require Import List Bool Arith ZArith.
Import ListNotations.
Local Open Scope nat_scope.

Inductive expr :=
| EInt (z : Z)
| EName (x : nat)              (* x: a global variable, or a static field in a class body *)
| EStat (c x : nat)            (* C.x *)
| EInst (o x : nat)            (* o.x for an object o *)
| EAdd (a b : expr)
| EEq (a b : expr).

Inductive stmt :=
| SClass (c : nat) (sup : option nat) (fields : list (nat * expr))
| SGlob (x : nat) (e : expr)
| SSet (c x : nat) (e : expr)  (* C.x = e *)
| SNew (o c : nat)             (* o = C() *)
| SInst (o x : nat) (e : expr) (* o.x = e *)
| SAssert (e : expr).
Definition prog := list stmt.

Fixpoint look {A : Type} (x : nat) (l : list (nat * A)) : option A :=
  match l with [] => None | (y, a) :: l' => if y =? x then Some a else look x l' end.
Definition b2z (b : bool) : Z := if b then 1%Z else 0%Z.

(** * Python *)
Record pclass := { p_sup : option nat; p_dict : list (nat * Z) }.
Record pobj := { p_cls : nat; p_attrs : list (nat * Z) }.
Record env := { globs : list (nat * Z); clss : list (nat * pclass); objs : list (nat * pobj) }.

(** Attributes are looked up in the class and its superclasses. *)
Fixpoint class_attr (fuel : nat) (s : env) (c x : nat) : option Z :=
  match fuel with
  | O => None
  | S n =>
      match look c (clss s) with
      | None => None
      | Some k =>
          match look x (p_dict k) with
          | Some z => Some z
          | None => match p_sup k with Some d => class_attr n s d x | None => None end
          end
      end
  end.
Definition attr (s : env) (c x : nat) : option Z := class_attr (S (length (clss s))) s c x.
Definition obj_attr (s : env) (o x : nat) : option Z :=
  match look o (objs s) with
  | None => None
  | Some b => match look x (p_attrs b) with Some z => Some z | None => attr s (p_cls b) x end
  end.

(** In a class body (with the fields in [loc] so far), names are those of the body, or
    global. *)
Fixpoint eval (s : env) (loc : list (nat * Z)) (e : expr) : option Z :=
  match e with
  | EInt z => Some z
  | EName x => match look x loc with Some z => Some z | None => look x (globs s) end
  | EStat c x => attr s c x
  | EInst o x => obj_attr s o x
  | EAdd a b => match eval s loc a, eval s loc b with Some x, Some y => Some (x + y)%Z | _, _ => None end
  | EEq a b => match eval s loc a, eval s loc b with Some x, Some y => Some (b2z (x =? y)%Z) | _, _ => None end
  end.
Fixpoint body (s : env) (loc : list (nat * Z)) (fs : list (nat * expr)) : option (list (nat * Z)) :=
  match fs with
  | [] => Some loc
  | (x, e) :: fs' => match eval s loc e with Some z => body s ((x, z) :: loc) fs' | None => None end
  end.
Definition set_class (c : nat) (k : pclass) (s : env) : env := {| globs := globs s; clss := (c, k) :: clss s; objs := objs s |}.
Definition set_obj (o : nat) (b : pobj) (s : env) : env := {| globs := globs s; clss := clss s; objs := (o, b) :: objs s |}.

(** None: NameError, AttributeError or a failing assertion. *)
Definition exec (t : stmt) (s : env) : option env :=
  match t with
  | SClass c sup fs =>
      match (match sup with Some d => look d (clss s) | None => Some {| p_sup := None; p_dict := [] |} end) with
      | None => None
      | Some _ => option_map (fun l => set_class c {| p_sup := sup; p_dict := l |} s) (body s [] fs)
      end
  | SGlob x e => option_map (fun z => {| globs := (x, z) :: globs s; clss := clss s; objs := objs s |}) (eval s [] e)
  | SSet c x e =>
      match eval s [] e, look c (clss s) with
      | Some z, Some k => Some (set_class c {| p_sup := p_sup k; p_dict := (x, z) :: p_dict k |} s)
      | _, _ => None
      end
  | SNew o c => option_map (fun _ => set_obj o {| p_cls := c; p_attrs := [] |} s) (look c (clss s))
  | SInst o x e =>
      match eval s [] e, look o (objs s) with
      | Some z, Some b => Some (set_obj o {| p_cls := p_cls b; p_attrs := (x, z) :: p_attrs b |} s)
      | _, _ => None
      end
  | SAssert e => match eval s [] e with Some z => if (z =? 0)%Z then None else Some s | None => None end
  end.
Fixpoint run (P : prog) (s : env) : option env :=
  match P with [] => Some s | t :: P' => match exec t s with Some s' => run P' s' | None => None end end.
Definition empty : env := {| globs := []; clss := []; objs := [] |}.

(** * The analyzer *)
Section Trans.
  Variable P : prog.

  Definition class_of (c : nat) : option (option nat * list (nat * expr)) :=
    look c (flat_map (fun t => match t with SClass c sup fs => [(c, (sup, fs))] | _ => [] end) P).
  Definition glob_of (x : nat) : option expr :=
    look x (flat_map (fun t => match t with SGlob x e => [(x, e)] | _ => [] end) P).
  (** The static type of a global variable that holds an object. *)
  Definition type_of (o : nat) : option nat :=
    look o (flat_map (fun t => match t with SNew o c => [(o, c)] | _ => [] end) P).

  (** static_fields of a class (analyzer.py 1549-1564). *)
  Definition own (c x : nat) : bool :=
    match class_of c with Some (_, fs) => match look x fs with Some _ => true | None => false end | None => false end.
  Definition field_value (c x : nat) : option expr :=
    match class_of c with Some (_, fs) => look x fs | None => None end.

  (** program_nodes.py 562-572 (get_static_field): the class whose field C.x is. *)
  Fixpoint nearest_ (fuel : nat) (c x : nat) : option nat :=
    match fuel with
    | O => None
    | S n =>
        if own c x then Some c
        else match class_of c with Some (Some d, _) => nearest_ n d x | _ => None end
    end.
  Definition nearest (c x : nat) : option nat := nearest_ (S (length P)) c x.

  (** program_nodes.py 1688-1697: a field overrides that of the direct superclass, and
      expression.py 1046-1047 follows this to the root. *)
  Fixpoint root_ (fuel : nat) (c x : nat) : nat :=
    match fuel with
    | O => c
    | S n => match class_of c with Some (Some d, _) => if own d x then root_ n d x else c | _ => c end
    end.
  Definition root (c x : nat) : nat := root_ (length P) c x.

  (** analyzer.py 1579-1584: C.x = e is a write of the field that C.x denotes; together
      with the one in the class body it is not final any more. *)
  Definition final (c x : nat) : bool :=
    negb (existsb (fun t => match t with
                            | SSet d y _ => (y =? x) && match nearest d y with Some c' => c' =? c | None => false end
                            | _ => false end) P).

  (** * The Viper program *)

  (** The functions: of a global variable, and of the root of a static field, applied to
      a class. *)
  Variable G : nat -> Z.
  Variable F : nat -> nat -> nat -> Z. (* root, field, receiver *)

  (** The values of fields and variables are translated in the class of the field; static
      fields that are not final need permissions, which functions do not have. *)
  Definition static_ok (c x : nat) : bool :=
    match nearest c x with Some d => final (root d x) x | None => false end.
  Definition static (c x : nat) : Z := match nearest c x with Some d => F (root d x) x c | None => 0%Z end.
  Fixpoint pure (scope : option nat) (e : expr) : bool :=
    match e with
    | EInt _ => true
    | EName x => match scope with Some c => if own c x then static_ok c x else true | None => true end
    | EStat c x => static_ok c x
    | EInst o x => match type_of o with Some c => own c x && static_ok c x | None => false end
    | EAdd a b | EEq a b => pure scope a && pure scope b
    end.
  Fixpoint ieval (scope : option nat) (e : expr) : Z :=
    match e with
    | EInt z => z
    | EName x => match scope with Some c => if own c x then static c x else G x | None => G x end
    | EStat c x => static c x
    | EInst o x => match type_of o with Some c => static c x | None => 0%Z end
    | EAdd a b => (ieval scope a + ieval scope b)%Z
    | EEq a b => b2z (ieval scope a =? ieval scope b)%Z
    end.

  (** program.py 120-172 (create_static_field_function) and 1350-1356: for each class that
      has the field, the value of the field that it has, for the class of the field. *)
  Definition static_axioms : Prop :=
    forall c x d e, nearest c x = Some d -> field_value d x = Some e ->
      F (root d x) x d = ieval (Some d) e.
  (** program.py 174-205: variables whose value does not depend on the heap. *)
  Definition glob_axioms : Prop :=
    forall x e, glob_of x = Some e -> pure None e = true -> G x = ieval None e.

  (** Heap (the field that holds the value of a variable, of the reference with the given
      integer value), permissions, and the defined names of the module. *)
  Record vstate := { hp : Z -> Z; pm : Z -> bool; nms : nat -> bool; ncl : nat -> bool; nob : nat -> bool }.

  (** expression.py 1036-1077 (translate_static_field_access). *)
  Definition read_static (st : vstate) (c x : nat) : option Z :=
    match nearest c x with
    | None => None
    | Some d =>
        let r := F (root d x) x c in
        if final (root d x) x then Some r else if pm st r then Some (hp st r) else None
    end.
  (** expression.py 912-1014 and 1116-1180: reads in the main method. A name that is a
      static field of the current class denotes that field; both kinds of names are
      checked to be among the names of the module. Objects: only if the class itself has
      the static field; otherwise an instance field is accessed (533-550), for which there
      is no permission. *)
  Fixpoint veval (scope : option nat) (st : vstate) (e : expr) : option Z :=
    match e with
    | EInt z => Some z
    | EName x =>
        if nms st x
        then match scope with
             | Some c => if own c x then read_static st c x else Some (G x)
             | None => Some (G x)
             end
        else None
    | EStat c x => if ncl st c then read_static st c x else None
    | EInst o x =>
        match type_of o with
        | Some c => if nob st o && own c x then read_static st c x else None
        | None => None
        end
    | EAdd a b => match veval scope st a, veval scope st b with Some x, Some y => Some (x + y)%Z | _, _ => None end
    | EEq a b => match veval scope st a, veval scope st b with Some x, Some y => Some (b2z (x =? y)%Z) | _, _ => None end
    end.

  Definition updz {A : Type} (f : Z -> A) (k : Z) (a : A) : Z -> A := fun k' => if (k' =? k)%Z then a else f k'.
  Definition updn (f : nat -> bool) (k : nat) : nat -> bool := fun k' => if k' =? k then true else f k'.
  (** set_global_defined (common.py 309-333), also for static fields. *)
  Definition def_name (x : nat) (st : vstate) : vstate := {| hp := hp st; pm := pm st; nms := updn (nms st) x; ncl := ncl st; nob := nob st |}.
  Definition def_class (c : nat) (st : vstate) : vstate := {| hp := hp st; pm := pm st; nms := nms st; ncl := updn (ncl st) c; nob := nob st |}.
  Definition def_obj (o : nat) (st : vstate) : vstate := {| hp := hp st; pm := pm st; nms := nms st; ncl := ncl st; nob := updn (nob st) o |}.

  (** statement.py 1385-1464: assignment to a static field through a class or an object
      of the class c, where d is the class of the field. A final field may be assigned
      only in its class body (inhaling the equality); a field assignment to a function
      application is not possible. *)
  Definition store (c x : nat) (z : Z) (st : vstate) (Q : vstate -> Prop) : Prop :=
    match nearest c x with
    | None => False
    | Some d =>
        let r := F (root d x) x c in
        final d x = false /\ final (root d x) x = false /\ pm st r = true /\
        Q (def_name x {| hp := updz (hp st) r z; pm := pm st; nms := nms st; ncl := ncl st; nob := nob st |})
    end.
  (** 355-393 (translate_stmt_ClassDef): permissions for the fields that are not final. *)
  Fixpoint give (c : nat) (fs : list (nat * expr)) (st : vstate) (Q : vstate -> Prop) : Prop :=
    match fs with
    | [] => Q st
    | (x, _) :: fs' =>
        if final c x then give c fs' st Q
        else
          let r := F (root c x) x c in
          final (root c x) x = false /\
          (pm st r = false -> give c fs' {| hp := hp st; pm := updz (pm st) r true; nms := nms st; ncl := ncl st; nob := nob st |} Q)
    end.
  Fixpoint wp_body (c : nat) (fs : list (nat * expr)) (st : vstate) (Q : vstate -> Prop) : Prop :=
    match fs with
    | [] => Q st
    | (x, e) :: fs' =>
        match veval (Some c) st e with
        | None => False
        | Some z =>
            if final c x
            then final (root c x) x = true /\ (F (root c x) x c = z -> wp_body c fs' (def_name x st) Q)
            else store c x z st (fun st' => wp_body c fs' st' Q)
        end
    end.
  Definition wp (t : stmt) (st : vstate) (Q : vstate -> Prop) : Prop :=
    match t with
    | SClass c sup fs =>
        (match sup with Some d => ncl st d = true | None => True end) /\
        give c fs st (fun st1 => wp_body c fs st1 (fun st2 => Q (def_class c st2)))
    | SGlob x e => match veval None st e with Some z => G x = z -> Q (def_name x st) | None => False end
    | SSet c x e =>
        match veval None st e with Some z => ncl st c = true /\ store c x z st Q | None => False end
    | SNew o c => ncl st c = true /\ Q (def_obj o st)
    | SInst o x e =>
        match veval None st e, type_of o with
        | Some z, Some c => nob st o = true /\ own c x = true /\ store c x z st Q
        | _, _ => False
        end
    | SAssert e => exists z, veval None st e = Some z /\ z <> 0%Z /\ Q st
    end.
  Fixpoint wps (Q : prog) (st : vstate) : Prop :=
    match Q with [] => True | t :: Q' => wp t st (fun st' => wps Q' st') end.
End Trans.

(** The program verifies: the values of static fields are pure, and the main method
    verifies for all interpretations. *)
Definition verifies (P : prog) : Prop :=
  (forall c x e, field_value P c x = Some e -> pure P (Some c) e = true) /\
  forall G F h, static_axioms P G F -> glob_axioms P G F ->
    wps P G F P {| hp := h; pm := fun _ => false; nms := fun _ => false; ncl := fun _ => false; nob := fun _ => false |}.
