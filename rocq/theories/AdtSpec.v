(** * What users rely on for algebraic data types

    First the meaning of generated formulas in an interpretation, then when
    an interpretation is a model of a program's ADTs, then the vocabulary of
    the properties. *)

From Coq Require Import List String Ascii NArith ZArith Bool.
From Verif Require Import AdtModel.
Import ListNotations.

(** ** Classes *)

(** The class hierarchy of the program: subclass relation, the class of
    None, and the classes that have instances which are not ADT values. *)
Record world := {
  w_sub : cls -> cls -> bool;
  w_none : cls;
  w_inst : cls -> Prop }.

Record wf_world (w : world) (p : list adt) : Prop := {
  ww_refl : forall c, w_sub w c c = true;
  ww_none : w_inst w (w_none w);
  ww_only_none : forall c, w_inst w c -> w_sub w c (w_none w) = true -> c = w_none w;
  ww_cons_none : forall a c, In a p -> In c (a_cons a) ->
    w_sub w (c_cls c) (w_none w) = false;
  ww_cons_sub : forall a c, In a p -> In c (a_cons a) ->
    w_sub w (c_cls c) (a_cls a) = true;
  ww_inst : forall a k, In a p -> w_inst w k -> w_sub w k (a_cls a) = false;
  ww_other : forall a a' c, In a p -> In a' p -> In c (a_cons a) ->
    w_sub w (c_cls c) (a_cls a') = true -> a' = a;
  ww_adts : NoDup (map a_cls p);
  ww_conss : NoDup (map c_cls (flat_map a_cons p)) }.

(** ** Interpretations and the meaning of formulas *)

Record interp := {
  uni : Type;
  has : srt -> uni -> Prop;          (* values of a Viper type *)
  ap : sym -> list uni -> uni;       (* function symbols *)
  tyof : uni -> cls;                 (* typeof *)
  truth : uni -> Prop;               (* Bool values that are true *)
  nul : uni }.                       (* null *)

Definition env (I : interp) := var -> uni I.

Definition var_eq_dec (x y : var) : {x = y} + {x <> y}.
Proof. decide equality; apply PeanoNat.Nat.eq_dec. Defined.

Definition upd (I : interp) (e : env I) (x : var) (v : uni I) : env I :=
  fun y => if var_eq_dec y x then v else e y.

Fixpoint ev (I : interp) (e : env I) (t : tm) : uni I :=
  match t with
  | Var x => e x
  | App f args => ap I f (map (ev I e) args)
  end.

(** Quantification over the variables of a declaration list. *)
Fixpoint all_vals (I : interp) (vs : list (var * srt)) (k : env I -> Prop)
  (e : env I) : Prop :=
  match vs with
  | [] => k e
  | (x, s) :: r => forall v, has I s v -> all_vals I r k (upd I e x v)
  end.

Fixpoint holds (w : world) (I : interp) (p : fm) (e : env I) : Prop :=
  match p with
  | Tru => True
  | Eq s t => ev I e s = ev I e t
  | Hold t => truth I (ev I e t)
  | Iff p q => holds w I p e <-> holds w I q e
  | And p q => holds w I p e /\ holds w I q e
  | Or p q => holds w I p e \/ holds w I q e
  | Imp p q => holds w I p e -> holds w I q e
  | TypeIs t c => tyof I (ev I e t) = c
  | TypeSub t c => w_sub w (tyof I (ev I e t)) c = true
  | All vs p => all_vals I vs (holds w I p) e
  end.

(** A Viper model: Int and Bool are standard, functions respect their
    signatures, unique functions are pairwise different, null is the only
    reference of type NoneType (type_domain_factory.py 602-624), every class
    with instances has one, and the axioms hold. *)
Record is_model (w : world) (I : interp) (ds : list decl) (axs : list fm) : Prop := {
  m_int : exists z : Z -> uni I, (forall x y, z x = z y -> x = y) /\
            forall u, has I SInt u <-> exists x, u = z x;
  m_bool : exists t f, truth I t /\ ~ truth I f /\
            forall u, has I SBool u <-> u = t \/ u = f;
  m_nul : has I SRef (nul I);
  m_none : forall u, has I SRef u ->
            (w_sub w (tyof I u) (w_none w) = true <-> u = nul I);
  m_inst : forall k, w_inst w k -> exists u, has I SRef u /\ tyof I u = k;
  m_inhab : forall d s, In d ds -> s = d_res d \/ In s (d_args d) -> exists u, has I s u;
  m_fun : forall d l, In d ds -> Forall2 (has I) (d_args d) l ->
            has I (d_res d) (ap I (d_sym d) l);
  m_unique : forall d d', In d ds -> In d' ds ->
            d_unique d = true -> d_unique d' = true -> d_sym d <> d_sym d' ->
            ap I (d_sym d) [] <> ap I (d_sym d') [];
  m_axioms : forall p e, In p axs -> holds w I p e }.

(** ** Vocabulary of the properties *)

(** [v] is an acceptable argument for a field of type [t]: what mypy and the
    callers' type checks guarantee. *)
Definition arg_ok (w : world) (I : interp) (a : adt) (t : fty) (v : uni I) : Prop :=
  match t with
  | FInt => has I SInt v
  | FBool => has I SBool v
  | FAdt => has I SRef v /\ w_sub w (tyof I v) (a_cls a) = true
  | FCls k => has I SRef v /\ w_sub w (tyof I v) k = true
  end.

(** The expressions [ts] are well-typed arguments for constructor [c]. *)
Definition args_ok (w : world) (I : interp) (e : env I) (a : adt) (c : cons)
  (ts : list tm) : Prop :=
  Forall2 (fun f t => arg_ok w I a (f_ty f) (ev I e t)) (c_fields c) ts.

(** [v] is a value of the ADT [a]: isinstance(v, a). *)
Definition is_adt (w : world) (I : interp) (a : adt) (v : uni I) : Prop :=
  has I SRef v /\ w_sub w (tyof I v) (a_cls a) = true.

(** Names of the generated functions are pairwise different. *)
Definition names_distinct (ds : list decl) : Prop := NoDup (map d_sym ds).

(** Every class-typed field accepts every object there is. *)
Definition class_fields_universal (w : world) (p : list adt) : Prop :=
  forall a c f k, In a p -> In c (a_cons a) -> In f (c_fields c) ->
    f_ty f = FCls k ->
    (forall i, w_inst w i -> w_sub w i k = true) /\
    (forall a' c', In a' p -> In c' (a_cons a') -> w_sub w (c_cls c') k = true).

(** No field has a class type. *)
Definition no_class_fields (p : list adt) : Prop :=
  forall a c f k, In a p -> In c (a_cons a) -> In f (c_fields c) -> f_ty f <> FCls k.

(** Simple names: no underscore, constructors are not called 'is' or 'cons'
    or like the ADT, fields are not called 'type', names are not repeated. *)
Fixpoint no_underscore (s : string) : bool :=
  match s with
  | EmptyString => true
  | String ch r => negb (Ascii.eqb ch "_"%char) && no_underscore r
  end.

Definition simple_names (a : adt) : Prop :=
  no_underscore (a_name a) = true /\
  NoDup (map c_name (a_cons a)) /\
  forall c, In c (a_cons a) ->
    no_underscore (c_name c) = true /\ c_name c <> a_name a /\ c_name c <> "is"%string /\
    c_name c <> "cons"%string /\
    NoDup (map f_name (c_fields c)) /\
    forall f, In f (c_fields c) ->
      no_underscore (f_name f) = true /\ f_name f <> "type"%string.

(** Python's own [==] on values of NamedTuple classes with such values as
    fields: tuple equality, which compares the items and ignores the class. *)
Inductive ntval := NT (class : string) (items : list ntval).

Fixpoint nt_eq (x y : ntval) {struct x} : bool :=
  match x, y with
  | NT _ xs, NT _ ys =>
      (fix go (l m : list ntval) : bool :=
         match l, m with
         | [], [] => true
         | u :: l', v :: m' => nt_eq u v && go l' m'
         | _, _ => false
         end) xs ys
  end.

(** The contract expression that builds an [ntval] of the ADT [a]. *)
Fixpoint nt_term (a : adt) (x : ntval) : option tm :=
  match x with
  | NT n items =>
      match find (fun c => String.eqb (c_name c) n) (a_cons a) with
      | None => None
      | Some c =>
          match (fix go (l : list ntval) : option (list tm) :=
                   match l with
                   | [] => Some []
                   | u :: r => match nt_term a u, go r with
                               | Some t, Some ts => Some (t :: ts)
                               | _, _ => None
                               end
                   end) items with
          | Some ts => Some (py_cons a c ts)
          | None => None
          end
      end
  end.

(** Class statements that declare an ADT ([st_bases = 1]: the defining class,
    directly below ADT) or a constructor of one (a NamedTuple with the name of
    the class, below a class that is not ADT itself). *)
Inductive adt_shape (s : adt_stmt) : Prop :=
| shape_def : st_bases s = 1 -> st_body_pass s = true -> st_super_is_ADT s = true -> adt_shape s
| shape_cons : st_bases s = 2 -> st_body_pass s = true -> st_super_is_ADT s = false ->
    st_named_tuple s = Some (st_name s) -> adt_shape s.
