(** Python's rules for dataclasses (standard library, module dataclasses). *)
From Coq Require Import Bool Arith List.
From Verif Require Import DataModel.
Import ListNotations.

(** The value a class attribute has after the body of the class was run: a default
    of an annotated name (for a factory the dataclass decorator deletes it) or a plain
    assignment. *)
Fixpoint own_attr (ms : list member) (x : nat) : option nat :=
  match ms with
  | [] => None
  | MField y (Some (DConst v)) :: ms' => if y =? x then Some v else own_attr ms' x
  | MPlain y v :: ms' => if y =? x then Some v else own_attr ms' x
  | _ :: ms' => own_attr ms' x
  end.
(** getattr(cls, x) along the superclasses. *)
Fixpoint class_attr (fuel : nat) (p : list item) (c x : nat) : option nat :=
  match fuel with
  | 0 => None
  | S f =>
      match find_class p c with
      | None => None
      | Some k => match own_attr (c_members k) x with
                  | Some v => Some v
                  | None => match c_base k with Some b => class_attr f p b x | None => None end
                  end
      end
  end.

(** A field of a dataclass: name and default. *)
Definition pfield := (nat * option dval)%type.
(** A field that is declared again keeps its place and takes the new default. *)
Fixpoint put_field (f : pfield) (fs : list pfield) : list pfield :=
  match fs with
  | [] => [f]
  | g :: fs' => if fst g =? fst f then f :: fs' else g :: put_field f fs'
  end.
(** Only annotated names are fields. *)
Definition own_fields (p : list item) (k : cls) : list pfield :=
  flat_map (fun m => match m with
                     | MField x (Some d) => [(x, Some d)]
                     | MField x None =>
                         [(x, option_map DConst (class_attr (length p) p (c_name k) x))]
                     | _ => [] end) (c_members k).
(** The fields of the superclasses come first. *)
Fixpoint py_fields (fuel : nat) (p : list item) (c : nat) : list pfield :=
  match fuel with
  | 0 => []
  | S f =>
      match find_class p c with
      | None => []
      | Some k =>
          let inherited := match c_base k with Some b => py_fields f p b | None => [] end in
          if c_data k then fold_left (fun fs g => put_field g fs) (own_fields p k) inherited else inherited
      end
  end.

(** Fields without a default may not follow fields with one: Python raises TypeError. *)
Fixpoint defaults_last (fs : list pfield) : Prop :=
  match fs with
  | [] => True
  | (_, Some _) :: fs' => Forall (fun g => snd g <> None) fs'
  | (_, None) :: fs' => defaults_last fs'
  end.

(** The constructor the class or its nearest superclass has. *)
Fixpoint py_init (fuel : nat) (p : list item) (c : nat) : option owner :=
  match fuel with
  | 0 => None
  | S f =>
      match find_class p c with
      | None => None
      | Some k => if existsb (fun m => match m with MMethod KInit _ => true | _ => false end) (c_members k)
                  then Some (OExplicit c)
                  else if c_data k then Some (OImplicit c)
                  else match c_base k with Some b => py_init f p b | None => None end
      end
  end.

Fixpoint find_kw (x : nat) (kws : list (nat * nat)) : option nat :=
  match kws with [] => None | (y, v) :: kws' => if y =? x then Some v else find_kw x kws' end.

(** The value of one field: a positional argument, else a keyword, else its default,
    where a default factory is called anew; [None]: TypeError. *)
Definition py_value (f : pfield) (arg : option nat) (kws : list (nat * nat)) : option source :=
  match arg, find_kw (fst f) kws with
  | Some _, Some _ => None
  | Some v, None => Some (SArg v)
  | None, Some v => Some (SArg v)
  | None, None => match snd f with
                  | Some (DConst v) => Some (SDefault v)
                  | Some DFactory => Some SFresh
                  | None => None
                  end
  end.
(** The attributes of the new object, in the order of the fields. *)
Definition py_object (fs : list pfield) (pos : list nat) (kws : list (nat * nat)) (o : list (nat * source)) : Prop :=
  length pos <= length fs /\ NoDup (map fst kws) /\ (forall x v, In (x, v) kws -> In x (map fst fs)) /\
  map fst o = map fst fs /\
  forall i f s, nth_error fs i = Some f -> nth_error (map snd o) i = Some s ->
                py_value f (nth_error pos i) kws = Some s.

(** C(pos, kws) runs the generated constructor and yields an object with attributes [o]. *)
Definition py_construct (p : list item) (c : nat) (pos : list nat) (kws : list (nat * nat)) (o : list (nat * source)) : Prop :=
  exists k, py_init (length p) p c = Some (OImplicit k) /\ py_object (py_fields (length p) p k) pos kws o.

(** __post_init__ along the superclasses; the generated constructor calls it if the
    class it was generated for has one, and the call is a method call on self. *)
Fixpoint py_method (fuel : nat) (p : list item) (c : nat) : option nat :=
  match fuel with
  | 0 => None
  | S f =>
      match find_class p c with
      | None => None
      | Some k => if existsb (fun m => match m with MMethod KPostInit _ => true | _ => false end) (c_members k)
                  then Some c
                  else match c_base k with Some b => py_method f p b | None => None end
      end
  end.
Definition py_post_init (p : list item) (c : nat) : option nat :=
  match py_init (length p) p c with
  | Some (OImplicit k) => match py_method (length p) p k with
                          | Some _ => py_method (length p) p c
                          | None => None
                          end
  | _ => None
  end.

(** ** What is mentioned before the constructor is generated *)

Definition of_class (c : nat) (l : list access) : list nat :=
  flat_map (fun a => if a_cls a =? c then [a_attr a] else []) l.
(** Attributes of class [c] mentioned by a member of the class [k]. *)
Definition member_mentions (c : nat) (k : cls) (m : member) : list nat :=
  match m with
  | MField x _ => if c_data k && (c_name k =? c) then [x] else []
  | MPlain x _ => if c_data k && (c_name k =? c) then [x] else []
  | MMethod _ l => of_class c l
  | MProperty x l => (if c_name k =? c then [x] else []) ++ of_class c l
  end.
(** ... from the start of the program to the end of the class itself. *)
Fixpoint mentions (p : list item) (c : nat) : list nat :=
  match p with
  | [] => []
  | IFunc l :: p' => of_class c l ++ mentions p' c
  | IClass k :: p' =>
      flat_map (member_mentions c k) (c_members k) ++
      (if c_name k =? c then [] else mentions p' c)
  end.
(** Every name once, in the order of first occurrence. *)
Fixpoint first_occurrences (seen l : list nat) : list nat :=
  match l with
  | [] => []
  | x :: l' => if existsb (Nat.eqb x) seen then first_occurrences seen l'
               else x :: first_occurrences (x :: seen) l'
  end.

Definition class_names (p : list item) : list nat :=
  flat_map (fun i => match i with IClass k => [c_name k] | IFunc _ => [] end) p.

Definition declared (ms : list member) : list nat :=
  flat_map (fun m => match m with MField x _ => [x] | _ => [] end) ms.
(** Accesses to attributes of [c] in the members, one by one, are to fields declared
    above; there are no properties and no plain assignments. *)
Fixpoint tidy_members (c : nat) (seen : list nat) (ms : list member) : Prop :=
  match ms with
  | [] => True
  | MField x _ :: ms' => ~ In x seen /\ tidy_members c (x :: seen) ms'
  | MPlain _ _ :: _ => False
  | MProperty _ _ :: _ => False
  | MMethod _ l :: ms' => (forall x, In x (of_class c l) -> In x seen) /\ tidy_members c seen ms'
  end.
(** Nothing above the class mentions its attributes. *)
Fixpoint untouched_before (p : list item) (c : nat) : Prop :=
  match p with
  | [] => True
  | IFunc l :: p' => of_class c l = [] /\ untouched_before p' c
  | IClass k :: p' =>
      if c_name k =? c then True
      else flat_map (member_mentions c k) (c_members k) = [] /\ untouched_before p' c
  end.
(** A dataclass without inherited fields, whose fields are declared with annotations
    before they are used. *)
Definition tidy (p : list item) (k : cls) : Prop :=
  c_data k = true /\ tidy_members (c_name k) [] (c_members k) /\ untouched_before p (c_name k) /\
  match c_base k with
  | None => True
  | Some b => py_fields (length p) p b = [] /\ forall x, class_attr (length p) p b x = None
  end.
