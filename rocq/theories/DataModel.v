(** Model of dataclasses: which fields the analyzer collects for a class, the
    constructor it generates, and the translation of a call to that constructor
    (analyzer.py 675-692, 693-735, 834-869, 1069-1080, 1396-1466, 1564-1599;
    lib/program_nodes.py 533-549, 574-585; translators/call.py 240-350, 930-975).

    Names, classes and values are numbers. A module is the list of its functions and
    classes in the order in which they are visited (imported modules are visited at
    their import statement, 779-796, so a program is one such list).
    Left out: types and annotations, static fields of classes that are no
    dataclasses, generic classes, permissions other than the ones the constructor
    returns, and default values that are neither constants nor attributes (they are
    rejected, 1461-1462). *)
From Coq Require Import Bool Arith List.
Import ListNotations.

(** x: T = v, or x: T = field(default_factory=list). *)
Inductive dval := DConst (v : nat) | DFactory.

(** A read or write of attribute [a_attr] whose receiver has static type [a_cls] and
    which is not the function or an argument of a call (1571-1574). *)
Record access := Acc { a_cls : nat; a_attr : nat }.

Inductive mkind := KInit | KPostInit | KOther.

Inductive member :=
| MField (x : nat) (d : option dval)            (* x: T, with or without a default *)
| MPlain (x : nat) (v : nat)                    (* x = v, no annotation *)
| MMethod (k : mkind) (acc : list access)       (* the accesses in its body *)
| MProperty (x : nat) (acc : list access).      (* @property *)

Record cls := { c_name : nat; c_base : option nat; c_data : bool; c_frozen : bool; c_members : list member }.

Inductive item := IFunc (acc : list access) | IClass (c : cls).

(** An entry of PythonClass.fields: a field or a property, and the attribute [result]
    or [default_factory] put there by 1444-1466. *)
Record entry := Entry { e_name : nat; e_prop : bool; e_default : option dval }.
Definition fields := list entry.
(** The fields of every class, found or not yet defined (499-530). *)
Definition table := list (nat * fields).

Fixpoint has (x : nat) (fs : fields) : bool :=
  match fs with [] => false | e :: fs' => (e_name e =? x) || has x fs' end.

Fixpoint get (t : table) (c : nat) : fields :=
  match t with [] => [] | (c', fs) :: t' => if c' =? c then fs else get t' c end.
Fixpoint upd (t : table) (c : nat) (f : fields -> fields) : table :=
  match t with
  | [] => [(c, f [])]
  | (c', fs) :: t' => if c' =? c then (c', f fs) :: t' else (c', fs) :: upd t' c f
  end.

(** lib/program_nodes.py 533-549: only the fields of this class are looked at. *)
Definition add_field (x : nat) (fs : fields) : fields :=
  if has x fs then fs else fs ++ [Entry x false None].

(** analyzer.py 834-837, 856-869: container[name] = func keeps the position of a name
    that is already there. *)
Fixpoint put_prop (x : nat) (fs : fields) : fields :=
  match fs with
  | [] => [Entry x true None]
  | e :: fs' => if e_name e =? x then Entry x true None :: fs' else e :: put_prop x fs'
  end.

(** 1459-1460, 1466 *)
Fixpoint set_default (x : nat) (d : dval) (fs : fields) : fields :=
  match fs with
  | [] => []
  | e :: fs' => if e_name e =? x then Entry x (e_prop e) (Some d) :: fs' else e :: set_default x d fs'
  end.

(** 1426-1466: a declaration in the body of a dataclass. *)
Definition declare (frozen : bool) (x : nat) (d : option dval) (fs : fields) : fields :=
  let fs1 := if frozen then put_prop x fs else add_field x fs in
  match d with Some v => set_default x v fs1 | None => fs1 end.

(** 1564-1599 *)
Definition visit_access (t : table) (a : access) : table := upd t (a_cls a) (add_field (a_attr a)).
Definition visit_accesses (t : table) (l : list access) : table := fold_left visit_access l t.

(** 686-687 and 819-908, 1396-1466: one member of the body of class [c]. *)
Definition visit_member (c : cls) (t : table) (m : member) : table :=
  match m with
  | MField x d => if c_data c then upd t (c_name c) (declare (c_frozen c) x d) else t
  | MPlain x v => if c_data c then upd t (c_name c) (declare (c_frozen c) x (Some (DConst v))) else t
  | MMethod _ acc => visit_accesses t acc
  | MProperty x acc => visit_accesses (upd t (c_name c) (put_prop x)) acc
  end.

Definition explicit_init (c : cls) : bool :=
  existsb (fun m => match m with MMethod KInit _ => true | _ => false end) (c_members c).
Definition has_post_init (c : cls) : bool :=
  existsb (fun m => match m with MMethod KPostInit _ => true | _ => false end) (c_members c).

(** 688: the generated constructor. *)
Definition implicit_init (c : cls) : bool := c_data c && negb (explicit_init c).

(** A parameter of the generated constructor, without self: its default, and the
    default factory that 726-730 attach to it by name. *)
Record param := Param { p_name : nat; p_default : option nat; p_factory : bool }.

(** 713-715: only the defaults that are there; None stands for a factory (1458). *)
Definition none_value : nat := 0.
Fixpoint defaults (fs : fields) : list nat :=
  match fs with
  | [] => []
  | Entry _ _ (Some (DConst v)) :: fs' => v :: defaults fs'
  | Entry _ _ (Some DFactory) :: fs' => none_value :: defaults fs'
  | Entry _ _ None :: fs' => defaults fs'
  end.
Definition is_factory (e : entry) : bool :=
  match e_default e with Some DFactory => true | _ => false end.

(** 1077-1080: defaults belong to the last parameters. *)
Fixpoint align (n : nat) (fs : fields) (ds : list nat) : list param :=
  match fs with
  | [] => []
  | e :: fs' =>
      match n, ds with
      | 0, d :: ds' => Param (e_name e) (Some d) (is_factory e) :: align 0 fs' ds'
      | 0, [] => Param (e_name e) None (is_factory e) :: align 0 fs' []
      | S n', _ => Param (e_name e) None (is_factory e) :: align n' fs' ds
      end
  end.
(** 693-730 *)
Definition init_params (fs : fields) : list param :=
  align (length fs - length (defaults fs)) fs (defaults fs).

(** 712: the constructor ensures [self.x is x] for every parameter; 708-709: and
    access to the field, if the class is not frozen. *)
Record ctor := { k_params : list param; k_acc : list nat }.
Definition make_ctor (c : cls) (fs : fields) : ctor :=
  {| k_params := init_params fs; k_acc := if c_frozen c then [] else map e_name fs |}.

(** 443-456, 626-691: the constructors generated for the classes of a program. *)
Fixpoint visit_items (t : table) (l : list item) : list (nat * ctor) :=
  match l with
  | [] => []
  | IFunc acc :: l' => visit_items (visit_accesses t acc) l'
  | IClass c :: l' =>
      let t' := fold_left (visit_member c) (c_members c) t in
      if implicit_init c then (c_name c, make_ctor c (get t' (c_name c))) :: visit_items t' l'
      else visit_items t' l'
  end.
Definition ctors (p : list item) : list (nat * ctor) := visit_items [] p.

Fixpoint find_ctor (l : list (nat * ctor)) (c : nat) : option ctor :=
  match l with [] => None | (c', k) :: l' => if c' =? c then Some k else find_ctor l' c end.

Fixpoint find_class (p : list item) (c : nat) : option cls :=
  match p with
  | [] => None
  | IFunc _ :: p' => find_class p' c
  | IClass k :: p' => if c_name k =? c then Some k else find_class p' c
  end.

(** lib/program_nodes.py 574-585 (get_method): the class or its nearest superclass
    that has the method; the fuel is the number of classes. *)
Inductive owner := OImplicit (c : nat) | OExplicit (c : nat).
Fixpoint init_owner (fuel : nat) (p : list item) (c : nat) : option owner :=
  match fuel with
  | 0 => None
  | S f =>
      match find_class p c with
      | None => None
      | Some k => if explicit_init k then Some (OExplicit c)
                  else if implicit_init k then Some (OImplicit c)
                  else match c_base k with Some b => init_owner f p b | None => None end
      end
  end.
Fixpoint post_owner (fuel : nat) (p : list item) (c : nat) : option nat :=
  match fuel with
  | 0 => None
  | S f =>
      match find_class p c with
      | None => None
      | Some k => if has_post_init k then Some c
                  else match c_base k with Some b => post_owner f p b | None => None end
      end
  end.

(** Where the value of a parameter comes from. *)
Inductive source := SArg (v : nat) | SDefault (v : nat) | SFresh.

(** translators/call.py 946-953: a later keyword overrides an earlier one. *)
Fixpoint keyword (x : nat) (kws : list (nat * nat)) : option nat :=
  match kws with
  | [] => None
  | (y, v) :: kws' =>
      match keyword x kws' with
      | Some w => Some w
      | None => if y =? x then Some v else None
      end
  end.
(** 935, 944-945 and 946-974: positional arguments beyond the parameters are dropped
    (there is no *args), and so are unknown keywords; [None]: AssertionError in 972. *)
Fixpoint bind (ps : list param) (pos : list nat) (kws : list (nat * nat)) : option (list (nat * source)) :=
  match ps with
  | [] => Some []
  | p :: ps' =>
      let given := match keyword (p_name p) kws with
                   | Some v => Some (SArg v)
                   | None => match pos with
                             | v :: _ => Some (SArg v)
                             | [] => if p_factory p then Some SFresh
                                     else option_map SDefault (p_default p)
                             end
                   end in
      match given, bind ps' (tl pos) kws with
      | Some s, Some r => Some ((p_name p, s) :: r)
      | _, _ => None
      end
  end.

(** 240-350: what the verifier assumes about the attributes of a new object: the
    postcondition of the generated constructor. *)
Definition construct (p : list item) (c : nat) (pos : list nat) (kws : list (nat * nat)) : option (list (nat * source)) :=
  match init_owner (length p) p c with
  | Some (OImplicit k) =>
      match find_ctor (ctors p) k with
      | Some ct => bind (k_params ct) pos kws
      | None => None
      end
  | _ => None
  end.

(** 341-347: the __post_init__ that is called (and whose precondition is checked)
    after a generated constructor. *)
Definition post_init (p : list item) (c : nat) : option nat :=
  match find_class p c with
  | Some k => if c_data k && implicit_init k then post_owner (length p) p c else None
  | None => None
  end.
