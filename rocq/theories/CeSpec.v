(** What a counterexample should show: values of terms in a model whose values are trees,
    the integers that trees stand for, names that identify objects, and classes. *)
From Coq Require Import List Bool Arith ZArith String.
From Verif Require Import CeModel.
Import ListNotations.
Local Open Scope Z_scope.

(** ** Trees and how the solver prints them *)
Inductive sexp := Atom (a : str) | Node (f : str) (args : list sexp).
Fixpoint spaced (l : list str) : str := match l with [] => [] | a :: l' => 32 :: a ++ spaced l' end.
Fixpoint print (v : sexp) : str :=
  match v with Atom a => a | Node f args => 40 :: f ++ spaced (map print args) ++ [41] end.

(** Symbols are not empty and contain no white space and no parentheses. *)
Definition symbol (a : str) : Prop := a <> [] /\ forall c, In c a -> is_space c = false /\ c <> 40 /\ c <> 41.
Fixpoint proper (v : sexp) : Prop :=
  match v with
  | Atom a => symbol a
  | Node f args =>
      symbol f /\ args <> [] /\ (f = lit "$Snap.combine" -> List.length args = 2%nat) /\
      (fix all (l : list sexp) : Prop := match l with [] => True | x :: l' => proper x /\ all l' end) args
  end.

(** Integers as the solver prints them: 5 and (- 5). *)
Definition int_value (z : Z) : sexp := if 0 <=? z then Atom (show z) else Node (lit "-") [Atom (show (- z))].

(** ** Models with trees as values *)
Inductive sentry := SConst (v : sexp) | STable (rows : list (list sexp * sexp)) (els : sexp).
Definition smodel := list (str * sentry).
Definition print_entry (e : sentry) : entry :=
  match e with
  | SConst v => Const (print v)
  | STable rows els => Table (map (fun r => (map print (fst r), print (snd r))) rows) (print els)
  end.
Definition print_model (m : smodel) : model := map (fun p => (fst p, print_entry (snd p))) m.

Definition proper_entry (e : sentry) : Prop :=
  match e with
  | SConst v => proper v
  | STable rows els =>
      proper els /\ NoDup (map fst rows) /\
      (forall k v, In (k, v) rows -> proper v /\ forall x, In x k -> proper x)
  end.
Definition proper_model (m : smodel) : Prop :=
  NoDup (map fst m) /\ forall f e, In (f, e) m -> proper_entry e.

(** A table has the value of the row for the arguments and the value els elsewhere. *)
Definition applies (e : sentry) (vs : list sexp) (v : sexp) : Prop :=
  match e with
  | SConst w => vs = [] /\ v = w
  | STable rows els => In (vs, v) rows \/ (forall w, ~ In (vs, w) rows) /\ v = els
  end.
Definition present (m : smodel) (f : str) : Prop := exists e, In (f, e) m.
(** The entry for the function of an application: the version with suffix %limited if there
    is one, otherwise the one with its name, otherwise the one with angle brackets. *)
Definition angle (c : Z) : Z := match c with 91 => 60 | 93 => 62 | _ => c end.
Definition entry_of (m : smodel) (f : str) (e : sentry) : Prop :=
  In (f ++ lit "%limited", e) m \/
  ~ present m (f ++ lit "%limited") /\ In (f, e) m \/
  ~ present m (f ++ lit "%limited") /\ ~ present m f /\ In (map angle f, e) m.

(** The value of a term in a model. *)
Fixpoint value (m : smodel) (t : term) (v : sexp) : Prop :=
  match t with
  | TUnit => v = Atom (lit "$Snap.unit")
  | TInt z => v = int_value z
  | TNull => In (lit "$Ref.null", SConst v) m
  | TVar x => In (x, SConst v) m
  | TApp f args =>
      exists vs e,
        (fix all (l : list term) (vs : list sexp) : Prop :=
           match l, vs with [], [] => True | a :: l', x :: vs' => value m a x /\ all l' vs' | _, _ => False end) args vs /\
        entry_of m f e /\ applies e vs v
  | TCombine a b => exists x y, value m a x /\ value m b y /\ v = Node (lit "$Snap.combine") [x; y]
  | TFirst a => exists y, value m a (Node (lit "$Snap.combine") [v; y])
  | TSecond a => exists x, value m a (Node (lit "$Snap.combine") [x; v])
  | TWrap from to a =>
      exists x rows els, value m a x /\ In (lit "$SortWrappers." ++ from ++ lit "To" ++ to, STable rows els) m /\ applies (STable rows els) [x] v
  | _ => False
  end.

(** Terms without negative integers, string constants and sequences. *)
Fixpoint simple (t : term) : Prop :=
  match t with
  | TInt z => 0 <= z
  | TApp f args =>
      f <> lit "str___create__" /\
      (fix all (l : list term) : Prop := match l with [] => True | a :: l' => simple a /\ all l' end) args
  | TCombine a b => simple a /\ simple b
  | TFirst a | TSecond a | TWrap _ _ a => simple a
  | TSeqNil | TSeqOne _ | TSeqAppend _ _ => False
  | _ => True
  end.

(** ** Names of objects *)
Fixpoint commas (l : list str) : str := match l with [] => [] | [a] => a | a :: l' => a ++ 44 :: commas l' end.
Fixpoint display (cname : nat -> str) (t : ty) : str :=
  match t with
  | TC c => cname c
  | TG c args => cname c ++ 60 :: commas (map (display cname) args) ++ [62]
  end.
Definition class_of (t : ty) : nat := match t with TC c | TG c _ => c end.
Definition ends_in_digit (s : str) : Prop := exists r c, s = r ++ [c] /\ 48 <= c <= 57.
(** The declared type of the first request for an object, and the type it gives. *)
Fixpoint declared (l : list (str * ty)) (v : str) (t : ty) : Prop :=
  match l with [] => False | (w, u) :: l' => w = v /\ u = t \/ w <> v /\ declared l' v t end.
Definition resolved (actual : str -> ty -> option ty) (v : str) (t : ty) : ty :=
  match actual v t with Some a => a | None => t end.
Definition is_none (cname : nat -> str) (actual : str -> ty -> option ty) (v : str) (t : ty) : Prop :=
  exists a, actual v t = Some a /\ cname (class_of a) = lit "NoneType".

(** Conditions under which names identify objects. *)
Record clear (cname : nat -> str) (actual : str -> ty -> option ty) (l : list (str * ty)) : Prop := {
  (* different types are displayed differently *)
  clear_types : forall v t w u a b, In (v, t) l -> In (w, u) l -> actual v t = Some a -> actual w u = Some b ->
                display cname a = display cname b -> a = b;
  (* the name of a type does not end in a digit and is not a question mark *)
  clear_digits : forall v t a, In (v, t) l -> actual v t = Some a -> ~ ends_in_digit (display cname a) /\ display cname a <> lit "?";
  (* objects without a fitting type are declared with the same type *)
  clear_unknown : forall v t w u, In (v, t) l -> In (w, u) l -> actual v t = None -> actual w u = None -> t = u;
  (* there is one object None *)
  clear_none : forall v t w u, In (v, t) l -> In (w, u) l -> is_none cname actual v t -> is_none cname actual w u -> v = w
}.

(** ** Classes *)
Inductive below (subclasses : nat -> list nat) (e : nat) : nat -> Prop :=
| below_refl : below subclasses e e
| below_step c d : In d (subclasses c) -> below subclasses e d -> below subclasses e c.

(** The model describes the hierarchy: types of different classes differ, and issubtype answers
    for the type v of an object of class k whether k is a subclass. *)
Record describes (subclasses : nat -> list nat) (type_val : nat -> option str) (issub : str -> str -> str) (v : str) (k : nat) : Prop := {
  desc_inj : forall c d w, type_val c = Some w -> type_val d = Some w -> c = d;
  desc_val : type_val k = Some v;
  desc_yes : forall c w, type_val c = Some w -> below subclasses k c -> issub v w = lit "true";
  desc_no : forall c w, type_val c = Some w -> ~ below subclasses k c -> issub v w = lit "false"
}.
(** Classes have heights above those of their subclasses. *)
Definition ranked (subclasses : nat -> list nat) (h : nat -> nat) : Prop :=
  forall c d, In d (subclasses c) -> (h d < h c)%nat.
